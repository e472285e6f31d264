(** * P_Log1pE: the accuracy of log1p_doubledouble in IEEE double, library functions included (C50) *)
From Coq Require Import ZArith Reals List Bool Lia Lra.
From Flocq Require Import Core BinarySingleNaN Relative Sterbenz.
From Verif Require Import CSem CSemP Num NumP NumF M_Log1p S_Log1p S_Log1pE P_Log1p P_Log1pF M_Special S_Special P_Expint P_SpecialF P_ExpintF P_LogFactF.
Open Scope R_scope.

#[local] Instance p53 : Prec_gt_0 53 := eq_refl.
#[local] Instance v53 : Valid_exp fexp64 := FLT_exp_valid _ _.

(** ** the argument of a perturbed number *)
Lemma atan_scale k t : 1 <= k -> 0 <= t -> atan (k * t) <= k * atan t.
Proof.
  intros K T. destruct (Req_dec t 0) as [->|N]; [rewrite Rmult_0_r, atan_0; lra|].
  set (f := fun s => k * atan s - atan (k * s)). set (f' := fun s => k * (/ (1 + s * s)) - k * (/ (1 + (k * s) * (k * s)))).
  assert (D : forall c, 0 <= c <= t -> derivable_pt_lim f c (f' c)).
  { intros c _. unfold f, f'. apply derivable_pt_lim_minus.
    - apply derivable_pt_lim_scal. replace (1 + c * c) with (1 + c ^ 2) by ring. apply derivable_pt_lim_atan.
    - replace (k * / (1 + k * c * (k * c))) with (/ (1 + (k * c) ^ 2) * k) by (replace ((k * c) ^ 2) with (k * c * (k * c)) by ring; ring).
      apply (derivable_pt_lim_comp (fun s => k * s) atan); [|apply derivable_pt_lim_atan].
      assert (L : derivable_pt_lim (mult_real_fct k id) c (k * 1)) by apply derivable_pt_lim_scal, derivable_pt_lim_id. rewrite Rmult_1_r in L. exact L. }
  destruct (MVT_cor2 f f' 0 t ltac:(lra) D) as (c & E & C).
  assert (F0 : f 0 = 0) by (unfold f; rewrite Rmult_0_r, atan_0; ring). rewrite F0 in E.
  assert (G : 0 <= f' c).
  { unfold f'. assert (/ (1 + k * c * (k * c)) <= / (1 + c * c)).
    { assert (c <= k * c) by (rewrite <- (Rmult_1_l c) at 1; apply Rmult_le_compat_r; lra). apply Rinv_le_contravar; [nra|]. apply Rplus_le_compat_l, Rmult_le_compat; lra. }
    rewrite <- Rmult_minus_distr_l. apply Rmult_le_pos; lra. }
  assert (0 <= f' c * (t - 0)) by (apply Rmult_le_pos; lra). unfold f in E at 1. lra.
Qed.
Lemma atan_pos_rel q e : 0 <= q -> Rabs e < 1 -> Rabs (atan (q * (1 + e)) - atan q) <= Rabs e * atan q.
Proof.
  intros Q E. assert (M : forall a b, a <= b -> atan a <= atan b).
  { intros a b [H | ->]; [left; now apply atan_increasing|right; reflexivity]. }
  apply Rabs_def2 in E. destruct (Rle_dec 0 e) as [P|P].
  - rewrite (Rabs_pos_eq e) by exact P. pose proof (atan_scale (1 + e) q ltac:(lra) Q) as S. rewrite (Rmult_comm (1 + e) q) in S.
    assert (q <= q * (1 + e)) by (rewrite <- (Rmult_1_r q) at 1; apply Rmult_le_compat_l; lra). apply M in H. rewrite Rabs_pos_eq; lra.
  - rewrite (Rabs_left e) by lra. set (s := q * (1 + e)).
    assert (S0 : 0 <= s) by (apply Rmult_le_pos; lra). assert (K : 1 <= / (1 + e)) by (rewrite <- Rinv_1; apply Rinv_le_contravar; lra).
    pose proof (atan_scale _ _ K S0) as S. replace (/ (1 + e) * s) with q in S by (unfold s; field; lra).
    assert (L : (1 + e) * atan q <= atan s).
    { apply (Rmult_le_compat_l (1 + e)) in S; [|lra]. replace ((1 + e) * (/ (1 + e) * atan s)) with (atan s) in S by (field; lra). exact S. }
    assert (s <= q) by (unfold s; rewrite <- (Rmult_1_r q) at 2; apply Rmult_le_compat_l; lra). apply M in H. rewrite Rabs_left1; lra.
Qed.

Lemma is_arg_opp a b s t : is_arg a b s t -> is_arg a (- b) (negb s) (- t).
Proof.
  intros (B & (r & R & E1 & E2) & C). split; [lra|]. split.
  - exists r. rewrite cos_neg, sin_neg. split; [exact R|]. split; [exact E1|]. rewrite E2. ring.
  - intros Z N. rewrite (C ltac:(lra) N). destruct s; cbn; ring.
Qed.

Lemma arg_right a b s t : 0 < a -> is_arg a b s t -> t = atan (b / a).
Proof.
  intros A (B & (r & R & E1 & E2) & _). pose proof PI_RGT_0 as Pi.
  assert (C : 0 < cos t). { apply (Rmult_lt_reg_l r); [exact R|]. lra. }
  assert (T : - (PI / 2) < t < PI / 2).
  { split; apply Rnot_le_lt; intros H.
    - assert (cos (- t) <= 0) by (apply cos_le_0; lra). rewrite cos_neg in H0. lra.
    - assert (cos t <= 0) by (apply cos_le_0; lra). lra. }
  rewrite <- (atan_tan t T). f_equal. unfold tan. rewrite E1, E2. field. split; lra.
Qed.
Lemma arg_upper a b s t : 0 < b -> is_arg a b s t -> t = PI / 2 + atan (- a / b).
Proof.
  intros A (B & (r & R & E1 & E2) & _). pose proof PI_RGT_0 as Pi.
  assert (C : 0 < sin t). { apply (Rmult_lt_reg_l r); [exact R|]. lra. }
  assert (T : 0 < t < PI).
  { split; apply Rnot_le_lt; intros H.
    - assert (0 <= sin (- t)) by (apply sin_ge_0; lra). rewrite sin_neg in H0. lra.
    - replace t with PI in C by lra. rewrite sin_PI in C. lra. }
  assert (H : t - PI / 2 = atan (- a / b)).
  { rewrite <- (atan_tan (t - PI / 2)) by lra. f_equal. unfold tan. rewrite sin_minus, cos_minus, sin_PI2, cos_PI2, E1, E2. field. split; lra. }
  lra.
Qed.
Lemma polar_up a b : 0 < b -> exists r, 0 < r /\ a = r * cos (PI / 2 + atan (- a / b)) /\ b = r * sin (PI / 2 + atan (- a / b)).
Proof.
  intros B. destruct (polar b (- a) _ B eq_refl) as [P1 P2]. exists (sqrt (b * b + - a * - a)).
  split; [apply sqrt_lt_R0; pose proof (Rle_0_sqr a); unfold Rsqr in *; nra|].
  rewrite cos_plus, sin_plus, cos_PI2, sin_PI2. split; lra.
Qed.
Lemma polar_right a b : 0 < a -> exists r, 0 < r /\ a = r * cos (atan (b / a)) /\ b = r * sin (atan (b / a)).
Proof.
  intros A. destruct (polar a b _ A eq_refl) as [P1 P2]. exists (sqrt (a * a + b * b)). split; [apply sqrt_lt_R0; pose proof (Rle_0_sqr b); unfold Rsqr in *; nra|]. now split.
Qed.

Lemma arg_perturb_up a b s t d : 0 <= b -> is_arg a b s t -> Rabs d <= 1 / 1000 ->
  exists t', is_arg (a * (1 + d)) b s t' /\ Rabs (t' - t) <= 1002 / 1000 * Rabs d * Rabs t.
Proof.
  intros B A D. pose proof PI_RGT_0 as Pi. assert (D' := D). apply Rabs_le_inv in D'. pose proof (Rabs_pos d) as D0. pose proof (Rabs_pos t) as T0.
  destruct (Rlt_dec 0 a) as [Pa|Pa].
  - pose proof (arg_right _ _ _ _ Pa A) as T. assert (Pa' : 0 < a * (1 + d)) by (apply Rmult_lt_0_compat; lra).
    exists (atan (b / (a * (1 + d)))). pose proof (atan_bound (b / (a * (1 + d)))) as Bd. split.
    + split; [lra|]. split; [now apply polar_right|]. intros _ N. lra.
    + set (e := - d / (1 + d)). assert (E : b / (a * (1 + d)) = b / a * (1 + e)) by (unfold e; field; lra). rewrite E, T.
      assert (Ee : Rabs e <= 1002 / 1000 * Rabs d).
      { unfold e, Rdiv. rewrite Rabs_mult, Rabs_Ropp, (Rmult_comm _ (Rabs d)). apply Rmult_le_compat_l; [exact D0|].
        rewrite Rabs_pos_eq by (left; apply Rinv_0_lt_compat; lra). apply Rle_trans with (/ (999 / 1000)); [apply Rinv_le_contravar; lra|lra]. }
      assert (Q : 0 <= b / a) by (apply Rmult_le_pos; [exact B|left; now apply Rinv_0_lt_compat]).
      assert (AQ : 0 <= atan (b / a)). { rewrite <- atan_0. destruct Q as [Q | <-]; [left; now apply atan_increasing|right; reflexivity]. }
      eapply Rle_trans; [apply atan_pos_rel; [exact Q|lra]|]. rewrite (Rabs_pos_eq (atan _)) by exact AQ. apply Rmult_le_compat_r; assumption.
  - destruct (Req_dec a 0) as [->|N].
    { exists t. rewrite Rmult_0_l. split; [exact A|]. rewrite Rminus_diag_eq, Rabs_R0 by reflexivity. apply Rmult_le_pos; [lra|exact T0]. }
    assert (Na : a < 0) by lra. assert (Na' : a * (1 + d) < 0) by (assert (0 < (- a) * (1 + d)) by (apply Rmult_lt_0_compat; lra); lra).
    destruct (Req_dec b 0) as [Zb|Nb].
    { exists t. split; [|rewrite Rminus_diag_eq, Rabs_R0 by reflexivity; apply Rmult_le_pos; [lra|exact T0]].
      destruct A as (A1 & (r & R & E1 & E2) & A3). split; [exact A1|]. split.
      - exists (r * (1 + d)). split; [apply Rmult_lt_0_compat; lra|]. rewrite E1. split; [ring|]. rewrite Zb in *. assert (sin t = 0) by (destruct (Rmult_integral _ _ (eq_sym E2)); lra). rewrite H. ring.
      - intros _ _. now apply A3. }
    assert (Pb : 0 < b) by lra. pose proof (arg_upper _ _ _ _ Pb A) as T.
    exists (PI / 2 + atan (- (a * (1 + d)) / b)). pose proof (atan_bound (- (a * (1 + d)) / b)) as Bd. split.
    + split; [lra|]. split; [now apply polar_up|]. intros Z. lra.
    + replace (- (a * (1 + d)) / b) with (- a / b * (1 + d)) by (field; lra).
      assert (Q : 0 <= - a / b) by (apply Rmult_le_pos; [lra|left; now apply Rinv_0_lt_compat]).
      assert (AQ : 0 <= atan (- a / b)). { rewrite <- atan_0. destruct Q as [Q | <-]; [left; now apply atan_increasing|right; reflexivity]. }
      rewrite T. replace (PI / 2 + atan (- a / b * (1 + d)) - (PI / 2 + atan (- a / b))) with (atan (- a / b * (1 + d)) - atan (- a / b)) by ring.
      eapply Rle_trans; [apply atan_pos_rel; [exact Q|lra]|]. rewrite (Rabs_pos_eq (_ + _)) by lra.
      assert (Rabs d * atan (- a / b) <= Rabs d * (PI / 2 + atan (- a / b))) by (apply Rmult_le_compat_l; lra).
      assert (0 <= Rabs d * (PI / 2 + atan (- a / b))) by (apply Rmult_le_pos; lra). lra.
Qed.
Lemma arg_perturb a b s t d : is_arg a b s t -> Rabs d <= 1 / 1000 ->
  exists t', is_arg (a * (1 + d)) b s t' /\ Rabs (t' - t) <= 1002 / 1000 * Rabs d * Rabs t.
Proof.
  intros A D. destruct (Rle_dec 0 b) as [B|B]; [now apply arg_perturb_up|].
  destruct (arg_perturb_up a (- b) _ _ d ltac:(lra) (is_arg_opp _ _ _ _ A) D) as (t' & A' & E).
  exists (- t'). split.
  - apply is_arg_opp in A'. rewrite Ropp_involutive, negb_involutive in A'. exact A'.
  - replace (- t' - t) with (- (t' - - t)) by ring. rewrite Rabs_Ropp. rewrite <- (Rabs_Ropp t). exact E.
Qed.

(** ** 1 + x in double *)
Lemma one_plus (x : f64) : is_finite x = true -> Rabs (B2R x) <= pow2 990 ->
  exists d, Rabs d <= 1001 / 1000 * u /\ is_finite (a_add f64_arith x (f64_ofZ 1)) = true /\ B2R (a_add f64_arith x (f64_ofZ 1)) = (1 + B2R x) * (1 + d).
Proof.
  intros F B. assert (U : 0 < u <= / 10 ^ 15) by (unfold u; cbn [pow]; lra). pose proof eta_small as [ET0 ET].
  destruct (add_big x (f64_ofZ 1) 1 F) as (F1 & E1 & _).
  { eapply rep_weaken; [|exact (rep_ofZ 1 0 ltac:(lia) ltac:(vm_compute; discriminate))]. lia. }
  set (X := B2R x) in *. rewrite (Rplus_comm X 1) in E1.
  assert (G : Rabs (rn (1 + X) - (1 + X)) <= 1001 / 1000 * u * Rabs (1 + X)).
  { destruct (Rle_dec (-2) X) as [H1|H1]; [destruct (Rle_dec X (- (1 / 2))) as [H2|H2]|].
    - assert (format (1 + X)).
      { rewrite <- (Ropp_involutive X) at 1. change (format (1 - - X)). apply sterbenz; try typeclasses eauto.
        - apply (generic_format_bpow radix2 fexp64 0). unfold FLT_exp. lia.
        - apply generic_format_opp, (generic_format_B2R f64_prec f64_emax).
        - lra. }
      rewrite rn_id by assumption. rewrite Rminus_diag_eq, Rabs_R0 by reflexivity. apply Rmult_le_pos; [lra|apply Rabs_pos].
    - pose proof (rerr (1 + X)) as R. rewrite (Rabs_pos_eq (1 + X)) in * by lra. assert (u * (1 / 2) <= u * (1 + X)) by (apply Rmult_le_compat_l; lra). unfold u in *. cbn [pow] in *. lra.
    - pose proof (rerr (1 + X)) as R. rewrite (Rabs_left (1 + X)) in * by lra. assert (u * 1 <= u * - (1 + X)) by (apply Rmult_le_compat_l; lra). unfold u in *. cbn [pow] in *. lra. }
  destruct (Req_dec (1 + X) 0) as [Z|N].
  - exists 0. rewrite Rabs_R0. split; [lra|]. split; [exact F1|]. rewrite E1, Z, rn_0. ring.
  - exists ((rn (1 + X) - (1 + X)) / (1 + X)). split.
    + unfold Rdiv. rewrite Rabs_mult, Rabs_inv. assert (P : 0 < Rabs (1 + X)) by now apply Rabs_pos_lt.
      apply (Rmult_le_reg_r (Rabs (1 + X))); [exact P|]. rewrite Rmult_assoc, Rinv_l by lra. lra.
    + split; [exact F1|]. rewrite E1. field. exact N.
Qed.

Lemma dd_imag_ieee (at2 : f64 -> f64 -> f64) (x y : f64) t : good_atan2 at2 -> is_finite x = true -> is_finite y = true -> Rabs (B2R x) <= pow2 990 ->
  is_arg (1 + B2R x) (B2R y) (Bsign y) t ->
  is_finite (at2 y (a_add f64_arith x (f64_ofZ 1))) = true /\ Rabs (B2R (at2 y (a_add f64_arith x (f64_ofZ 1))) - t) <= 31 / 10 * u * Rabs t + pow2 (-1074).
Proof.
  intros G Fx Fy Bx A. assert (U : 0 < u <= / 10 ^ 15) by (unfold u; cbn [pow]; lra). destruct (one_plus x Fx Bx) as (d & D & F1 & E1).
  destruct (arg_perturb _ _ _ _ d A ltac:(cbn [pow] in U; lra)) as (t' & A' & T). rewrite <- E1 in A'.
  destruct (G _ y t' F1 Fy A') as [G1 G2]. split; [exact G1|]. set (r := B2R (at2 y _)) in *.
  replace (pow2 (-52)) with (2 * u) in G2 by (unfold u; cbn; lra). pose proof (Rabs_pos t) as T0.
  assert (DT : 1002 / 1000 * Rabs d * Rabs t <= 1004 / 1000 * u * Rabs t) by (apply Rmult_le_compat_r; lra).
  assert (At : Rabs t' <= (1 + 1 / 1000) * Rabs t).
  { replace t' with ((t' - t) + t) by ring. eapply Rle_trans; [apply Rabs_triang|]. assert (1004 / 1000 * u * Rabs t <= 1 / 1000 * Rabs t) by (apply Rmult_le_compat_r; [exact T0|cbn [pow] in U; lra]). lra. }
  assert (2 * u * Rabs t' <= 2 * u * ((1 + 1 / 1000) * Rabs t)) by (apply Rmult_le_compat_l; lra).
  assert (0 <= u * Rabs t) by (apply Rmult_le_pos; lra).
  replace (r - t) with ((r - t') + (t' - t)) by ring. eapply Rle_trans; [apply Rabs_triang|]. lra.
Qed.

(** the real part away from the circle *)
Lemma hyp_perturb a b d : Rabs d <= 1 / 1000 -> Rabs (sqrt (a * (1 + d) * (a * (1 + d)) + b * b) - sqrt (a * a + b * b)) <= Rabs d * sqrt (a * a + b * b).
Proof.
  intros D. pose proof (Rabs_pos d) as D0. set (H := sqrt (a * a + b * b)). pose proof (Rle_0_sqr a) as A2. pose proof (Rle_0_sqr b) as B2. unfold Rsqr in *.
  assert (HH : H * H = a * a + b * b) by (apply sqrt_sqrt; lra). assert (H0 : 0 <= H) by apply sqrt_pos.
  assert (d1 : - Rabs d <= d <= Rabs d) by (split; [pose proof (Rle_abs (- d)) as Q; rewrite Rabs_Ropp in Q; lra|apply Rle_abs]).
  set (e := Rabs d) in *.
  assert (S : (1 - e) * (1 - e) <= (1 + d) * (1 + d) <= (1 + e) * (1 + e)) by (split; apply Rmult_le_compat; lra).
  assert (S1 : (1 - e) * (1 - e) <= 1 <= (1 + e) * (1 + e)) by (split; nra).
  assert (L : (1 - e) * (1 - e) * (a * a) <= (1 + d) * (1 + d) * (a * a) <= (1 + e) * (1 + e) * (a * a)) by (split; apply Rmult_le_compat_r; lra).
  assert (L1 : (1 - e) * (1 - e) * (b * b) <= 1 * (b * b) <= (1 + e) * (1 + e) * (b * b)) by (split; apply Rmult_le_compat_r; lra).
  replace (a * (1 + d) * (a * (1 + d)) + b * b) with ((1 + d) * (1 + d) * (a * a) + b * b) by ring.
  set (Q := (1 + d) * (1 + d) * (a * a) + b * b).
  assert (HQ : ((1 - e) * H) * ((1 - e) * H) <= Q <= ((1 + e) * H) * ((1 + e) * H)).
  { replace ((1 - e) * H * ((1 - e) * H)) with ((1 - e) * (1 - e) * (H * H)) by ring. replace ((1 + e) * H * ((1 + e) * H)) with ((1 + e) * (1 + e) * (H * H)) by ring. rewrite HH. unfold Q. lra. }
  destruct HQ as [Q1 Q2]. apply sqrt_le_1_alt in Q1, Q2. rewrite sqrt_square in Q1 by (apply Rmult_le_pos; lra). rewrite sqrt_square in Q2 by (apply Rmult_le_pos; lra).
  apply Rabs_le. lra.
Qed.

Lemma ln_away H : 0 < H -> 1178 / 1000 <= H \/ H <= 79 / 100 -> 151 / 1000 <= Rabs (ln H).
Proof.
  intros P [G|G].
  - pose proof (ln_le_m1 (/ H) ltac:(now apply Rinv_0_lt_compat)) as Q. rewrite ln_Rinv in Q by exact P.
    assert (/ H <= / (1178 / 1000)) by (apply Rinv_le_contravar; lra). rewrite Rabs_pos_eq; lra.
  - pose proof (ln_le_m1 H P) as Q. rewrite Rabs_left; lra.
Qed.
Lemma dd_far (L : f64 -> f64) (hy : f64 -> f64 -> f64) (x y : f64) : good_log L -> good_hypot hy -> is_finite x = true -> is_finite y = true ->
  Rabs (B2R x) <= pow2 990 -> Rabs (B2R y) <= pow2 990 ->
  let H := sqrt ((1 + B2R x) * (1 + B2R x) + B2R y * B2R y) in pow2 (-1000) <= H -> 1178 / 1000 <= H \/ H <= 79 / 100 ->
  let r := L (hy (a_add f64_arith x (f64_ofZ 1)) y) in is_finite r = true /\ Rabs (B2R r - ln H) <= 23 * u * Rabs (ln H).
Proof.
  intros GL GH Fx Fy Bx By H LH AW r. assert (U : 0 < u <= / 10 ^ 15) by (unfold u; cbn [pow]; lra).
  destruct (one_plus x Fx Bx) as (d & D & F1 & E1). assert (H0 : 0 < H) by (assert (0 < pow2 (-1000)) by apply bpow_gt_0; lra).
  pose proof (hyp_perturb (1 + B2R x) (B2R y) d ltac:(cbn [pow] in U; lra)) as HP. rewrite <- E1 in HP. fold H in HP.
  specialize (GH _ y F1 Fy). cbv zeta in GH. set (a := a_add f64_arith x (f64_ofZ 1)) in *. set (H' := sqrt (B2R a * B2R a + B2R y * B2R y)) in *.
  assert (DH : Rabs d * H <= 1001 / 1000 * u * H) by (apply Rmult_le_compat_r; lra). assert (UH : 0 <= u * H <= / 10 ^ 15 * H) by (split; [apply Rmult_le_pos; lra|apply Rmult_le_compat_r; lra]).
  apply Rabs_le_inv in HP. assert (H1 : 0 <= H' <= (1 + / 10 ^ 14) * H) by (cbn [pow] in *; lra).
  assert (HB : H <= 4 * pow2 990).
  { assert (B1 : 1 <= pow2 990) by (apply (bpow_le radix2 0); lia).
    assert (Q : (1 + B2R x) * (1 + B2R x) + B2R y * B2R y <= (4 * pow2 990) * (4 * pow2 990)).
    { set (K := pow2 990) in *. clearbody K. assert (Sq : forall w c, Rabs w <= c -> w * w <= c * c).
      { intros w c Hw. rewrite <- (Rabs_pos_eq (w * w)) by (apply Rle_0_sqr). rewrite Rabs_mult. apply Rmult_le_compat; auto using Rabs_pos. }
      pose proof (Sq (1 + B2R x) (2 * K) ltac:(eapply Rle_trans; [apply Rabs_triang|]; rewrite Rabs_R1; lra)). pose proof (Sq _ _ By). assert (0 <= K * K) by (apply Rle_0_sqr). lra. }
    apply sqrt_le_1_alt in Q. rewrite sqrt_square in Q by lra. exact Q. }
  destruct GH as [G1 G2].
  { assert (8 * pow2 990 <= pow2 1000) by (change 8 with (pow2 3); rewrite <- bpow_plus; apply bpow_le; lia). cbn [pow] in *. lra. }
  set (h := hy a y) in *. replace (pow2 (-52)) with (2 * u) in G2 by (unfold u; cbn; lra).
  assert (TE : pow2 (-1074) <= / 10 ^ 3 * u * H).
  { apply Rle_trans with (/ 10 ^ 3 * u * pow2 (-1000)); [|apply Rmult_le_compat_l; [cbn [pow] in *; lra|exact LH]]. rewrite <- u_pow. apply Rle_trans with (pow2 (-10) * pow2 (-53) * pow2 (-1000)).
    - rewrite <- !bpow_plus. apply bpow_le. lia.
    - apply Rmult_le_compat_r; [apply bpow_ge_0|]. apply Rmult_le_compat_r; [apply bpow_ge_0|]. change (pow2 (-10)) with (/ 1024). cbn [pow]. lra. }
  assert (UH' : 2 * u * H' <= 2 * u * ((1 + / 10 ^ 14) * H)) by (apply Rmult_le_compat_l; lra).
  assert (HH : Rabs (B2R h - H) <= 3003 / 1000 * u * H).
  { replace (B2R h - H) with ((B2R h - H') + (H' - H)) by ring. eapply Rle_trans; [apply Rabs_triang|].
    assert (Rabs (H' - H) <= 1001 / 1000 * u * H) by (apply Rabs_le; lra). cbn [pow] in *. lra. }
  destruct (lnrel (B2R h) H (3003 / 1000 * u) H0 ltac:(cbn [pow] in U; lra) HH) as [h0 LN].
  destruct (GL h G1 h0) as [R1 R2]. fold r in R1, R2. split; [exact R1|]. replace (bpow radix2 (-52)) with (2 * u) in R2 by (unfold u; cbn; lra).
  pose proof (ln_away H H0 AW) as LA.
  assert (AL : Rabs (ln (B2R h)) <= Rabs (ln H) + 4 * u).
  { replace (ln (B2R h)) with (ln H + (ln (B2R h) - ln H)) by ring. eapply Rle_trans; [apply Rabs_triang|]. lra. }
  assert (Z : 2 * u * Rabs (ln (B2R h)) <= 2 * u * (Rabs (ln H) + 4 * u)) by (apply Rmult_le_compat_l; lra).
  assert (Z2 : u * u <= / 10 ^ 15 * u) by (apply Rmult_le_compat_r; lra).
  assert (Z3 : u * (151 / 1000) <= u * Rabs (ln H)) by (apply Rmult_le_compat_l; lra).
  replace (B2R r - ln H) with ((B2R r - ln (B2R h)) + (ln (B2R h) - ln H)) by ring. eapply Rle_trans; [apply Rabs_triang|]. cbn [pow] in *. lra.
Qed.

(** the real part near the circle *)
Lemma dd_close (L1 : f64 -> f64) (v : f64) V : good_log1p L1 -> is_finite v = true -> Rabs V <= 41 / 100 -> Rabs (B2R v - V) <= pow2 (-53) * Rabs V + pow2 (-97) ->
  let r := a_mul f64_arith (a_div f64_arith (f64_ofZ 1) (f64_ofZ 2)) (L1 v) in
  is_finite r = true /\ Rabs (B2R r - / 2 * ln (1 + V)) <= 5 * u * Rabs (/ 2 * ln (1 + V)) + pow2 (-97).
Proof.
  intros G F HV E r. assert (U : 0 < u <= / 10 ^ 15) by (unfold u; cbn [pow]; lra). rewrite u_pow in E.
  assert (HV' := HV). apply Rabs_le_inv in HV'. set (w := pow2 (-97)) in *.
  assert (W : 0 < w <= / 10 ^ 15). { split; [apply bpow_gt_0|]. apply Rle_trans with (pow2 (-53)); [apply bpow_le; lia|exact (proj2 U)]. }
  assert (T74 : 0 < pow2 (-1074) <= / 10 ^ 3 * w).
  { split; [apply bpow_gt_0|]. apply Rle_trans with (pow2 (-10) * pow2 (-97)); [rewrite <- bpow_plus; apply bpow_le; lia|]. apply Rmult_le_compat_r; [apply bpow_ge_0|]. change (pow2 (-10)) with (/ 1024). cbn [pow]. lra. }
  assert (ETA : 0 < eta <= / 10 ^ 3 * w).
  { split; [apply eta_small|]. eapply Rle_trans; [|apply (proj2 T74)]. unfold eta. apply bpow_le. lia. }
  assert (UV : 0 <= u * Rabs V <= / 10 ^ 15 * (41 / 100)) by (split; [apply Rmult_le_pos; [lra|apply Rabs_pos]|apply Rmult_le_compat; [lra|apply Rabs_pos|lra|lra]]).
  assert (E' := E). apply Rabs_le_inv in E'.
  assert (Dv : - (42 / 100) <= B2R v <= 42 / 100) by (cbn [pow] in *; lra).
  set (l := ln (1 + V)).
  (* the condition number *)
  assert (CN : Rabs V <= 17 / 10 * (1 + V) * Rabs l).
  { destruct (Rle_dec 0 V) as [P|P].
    - rewrite (Rabs_pos_eq V) by exact P. pose proof (ln_le_m1 (/ (1 + V)) ltac:(apply Rinv_0_lt_compat; lra)) as Q. rewrite ln_Rinv in Q by lra. fold l in Q.
      assert (Q2 : V <= (1 + V) * l).
      { assert (Q3 : (1 + V) * (1 - / (1 + V)) <= (1 + V) * l) by (apply Rmult_le_compat_l; lra). replace ((1 + V) * (1 - / (1 + V))) with V in Q3 by (field; lra). exact Q3. }
      assert (l0 : 0 <= l). { apply (Rmult_le_reg_l (1 + V)); lra. } rewrite (Rabs_pos_eq l) by exact l0. lra.
    - rewrite (Rabs_left V) by lra. pose proof (ln_le_m1 (1 + V) ltac:(lra)) as Q. fold l in Q. rewrite (Rabs_left l) by lra.
      assert (17 / 10 * (1 + V) * (- V) <= 17 / 10 * (1 + V) * (- l)) by (apply Rmult_le_compat_l; lra).
      assert (1 * - V <= 17 / 10 * (1 + V) * - V) by (apply Rmult_le_compat_r; lra). lra. }
  set (dl := u * (17 / 10) * Rabs l + 17 / 10 * w).
  assert (AL0 := Rabs_pos l).
  assert (Al : Rabs l <= 1).
  { unfold l. apply Rabs_le. split; [|pose proof (ln_le_m1 (1 + V) ltac:(lra)); lra].
    pose proof (ln_le_m1 (/ (1 + V)) ltac:(apply Rinv_0_lt_compat; lra)) as Q. rewrite ln_Rinv in Q by lra. assert (/ (1 + V) <= / (59 / 100)) by (apply Rinv_le_contravar; lra). lra. }
  assert (UL : 0 <= u * Rabs l <= / 10 ^ 15) by (split; [apply Rmult_le_pos; lra|]; apply Rle_trans with (/ 10 ^ 15 * 1); [apply Rmult_le_compat; lra|lra]).
  destruct (lnrel (1 + B2R v) (1 + V) dl ltac:(lra)) as [_ LN].
  { unfold dl. cbn [pow] in *. lra. }
  { replace (1 + B2R v - (1 + V)) with (B2R v - V) by ring. eapply Rle_trans; [exact E|]. unfold dl.
    replace ((u * (17 / 10) * Rabs l + 17 / 10 * w) * (1 + V)) with (u * (17 / 10 * (1 + V) * Rabs l) + w * (17 / 10 * (1 + V))) by ring.
    apply Rplus_le_compat; [apply Rmult_le_compat_l; lra|]. rewrite <- (Rmult_1_r w) at 1. apply Rmult_le_compat_l; lra. }
  fold l in LN. destruct (G v F ltac:(lra)) as [G1 G2]. replace (bpow radix2 (-52)) with (2 * u) in G2 by (unfold u; cbn; lra).
  set (lv := ln (1 + B2R v)) in *. set (q := B2R (L1 v)) in *.
  assert (ALv : Rabs lv <= Rabs l + 1002 / 1000 * dl). { replace lv with ((lv - l) + l) by ring. eapply Rle_trans; [apply Rabs_triang|]. lra. }
  assert (DL : 0 <= dl <= / 10 ^ 14) by (unfold dl; cbn [pow] in *; lra).
  assert (UD : 0 <= u * dl <= / 10 ^ 15 * dl) by (split; [apply Rmult_le_pos; lra|apply Rmult_le_compat_r; lra]).
  assert (Z : 2 * u * Rabs lv <= 2 * u * (Rabs l + 1002 / 1000 * dl)) by (apply Rmult_le_compat_l; lra).
  assert (Q : Rabs (q - l) <= 372 / 100 * (u * Rabs l) + 172 / 100 * w).
  { replace (q - l) with ((q - lv) + (lv - l)) by ring. eapply Rle_trans; [apply Rabs_triang|]. unfold dl in *. cbn [pow] in *. lra. }
  assert (Aq : Rabs q <= 1001 / 1000 * Rabs l + 2 * w).
  { replace q with ((q - l) + l) by ring. eapply Rle_trans; [apply Rabs_triang|]. assert (u * Rabs l <= / 10 ^ 15 * Rabs l) by (apply Rmult_le_compat_r; lra). cbn [pow] in *. lra. }
  assert (Rq : rep 1 (L1 v) q) by (apply rep_intro; [exact G1|fold q; change (pow2 1) with 2; cbn [pow] in *; lra]).
  assert (R1 := rep_ofZ 1 0 ltac:(lia) ltac:(vm_compute; discriminate)). assert (R2 := rep_ofZ 2 1 ltac:(lia) ltac:(vm_compute; discriminate)).
  assert (Rh := rep_div 0 1 _ _ _ _ R1 R2 ltac:(lra) ltac:(change (pow2 0) with 1; rewrite Rabs_pos_eq; lra) ltac:(lia)).
  assert (Hh : rn (1 / 2) = 1 / 2). { apply rn_id. replace (1 / 2) with (pow2 (-1)) by (cbn; lra). apply generic_format_bpow. unfold FLT_exp. lia. }
  rewrite Hh in Rh. assert (Rr := rep_mul _ _ _ _ _ _ Rh Rq ltac:(lia)). destruct Rr as (Fr & Er & _). split; [exact Fr|]. assert (Er' : B2R r = rn (1 / 2 * q)) by exact Er. rewrite Er'.
  pose proof (rerr (1 / 2 * q)) as RE. rewrite Rabs_mult, (Rabs_pos_eq (1 / 2)) in RE by lra.
  rewrite Rabs_mult, (Rabs_pos_eq (/ 2)) by lra.
  assert (Z4 : u * (1 / 2 * Rabs q) <= u * (1 / 2 * (1001 / 1000 * Rabs l + 2 * w))) by (apply Rmult_le_compat_l; lra).
  assert (Z5 : 0 <= u * w <= / 10 ^ 15 * w) by (split; [apply Rmult_le_pos; lra|apply Rmult_le_compat_r; lra]).
  set (z := rn (1 / 2 * q)) in *. replace (z - / 2 * l) with ((z - 1 / 2 * q) + / 2 * (q - l)) by field. eapply Rle_trans; [apply Rabs_triang|]. rewrite (Rabs_mult (/ 2)), (Rabs_pos_eq (/ 2)) by lra. cbn [pow] in *. lra.
Qed.

(** which formula is used *)
Lemma dd_split (log log1p : f64 -> f64) (hypot atan2 : f64 -> f64 -> f64) (x y : f64) : is_finite x = true -> is_finite y = true ->
  let re := fst (log1p_doubledouble f64_arith log log1p hypot atan2 (x, y)) in
  let X := B2R x in let Y := B2R y in let V := X * X + 2 * X + Y * Y in
  re = log (hypot (a_add f64_arith x (f64_ofZ 1)) y) /\ 39 / 100 <= Rabs V \/
  Rabs V <= 41 / 100 /\
  exists v, re = a_mul f64_arith (a_div f64_arith (f64_ofZ 1) (f64_ofZ 2)) (log1p v) /\
    is_finite v = true /\ Rabs (B2R v - V) <= pow2 (-53) * Rabs V + pow2 (-97).
Proof.
  intros Fx Fy re X Y V. destruct (Rle_dec (Rabs V) (39 / 100)) as [N|N].
  { right. split; [lra|]. exact (dd_ieee_near log log1p hypot atan2 x y Fx Fy N). }
  assert (N' : 39 / 100 <= Rabs V) by lra. unfold re, log1p_doubledouble. cbn [fst].
  match goal with |- context [if ?c then _ else _] => change c with (dd_box x y); destruct (dd_box x y) eqn:B end; [|left; now split].
  match goal with |- context [if ?c then _ else _] => destruct c eqn:L end; [|left; now split].
  right. apply box_inside in B. destruct B as (_ & _ & Bx & By). split.
  - destruct (test_value x y Fx Fy Bx By) as (t & Rt & Et). fold X Y in Et. fold V in Et.
    destruct (lit_bounds 4 ltac:(lia)) as (f5 & r5 & E5 & R5 & B5). rewrite <- E5 in L. apply (rep_ltb _ _ _ _ _ _ Rt R5) in L.
    assert (pow2 (-40) <= / 1024) by (replace (/ 1024) with (pow2 (-10)) by (cbn; lra); apply bpow_le; lia).
    apply Rabs_le_inv in Et. lra.
  - eexists. split; [reflexivity|]. now apply xsq_accurate.
Qed.

Theorem dd_error log log1p hypot atan2 (x y : f64) re im : good_log log -> good_log1p log1p -> good_hypot hypot -> good_atan2 atan2 ->
  is_finite x = true -> is_finite y = true -> Rabs (B2R x) <= pow2 990 -> Rabs (B2R y) <= pow2 990 -> B2R x <> -1 \/ pow2 (-1000) <= Rabs (B2R y) ->
  exp (2 * re) = (1 + B2R x) * (1 + B2R x) + B2R y * B2R y -> is_arg (1 + B2R x) (B2R y) (Bsign y) im ->
  let w := log1p_doubledouble f64_arith log log1p hypot atan2 (x, y) in
  is_finite (fst w) = true /\ is_finite (snd w) = true /\
  Rabs (B2R (fst w) - re) <= 23 * pow2 (-53) * Rabs re + pow2 (-97) /\
  (61 / 100 <= exp (2 * re) <= 139 / 100 -> Rabs (B2R (fst w) - re) <= 5 * pow2 (-53) * Rabs re + pow2 (-97)) /\
  Rabs (B2R (snd w) - im) <= 31 / 10 * pow2 (-53) * Rabs im + pow2 (-1074).
Proof.
  intros GL G1 GH GA Fx Fy Bx By NZ RE IM w. rewrite u_pow.
  destruct (dd_imag_ieee atan2 x y im GA Fx Fy Bx IM) as [I1 I2].
  set (X := B2R x) in *. set (Y := B2R y) in *. set (V := X * X + 2 * X + Y * Y). assert (WV : (1 + X) * (1 + X) + Y * Y = 1 + V) by (unfold V; ring).
  assert (ER : re = / 2 * ln (1 + V)). { rewrite <- WV, <- RE, ln_exp. field. }
  assert (EH : re = ln (sqrt ((1 + X) * (1 + X) + Y * Y))).
  { rewrite <- RE. replace (2 * re) with (re + re) by ring. rewrite exp_plus, sqrt_square by (left; apply exp_pos). now rewrite ln_exp. }
  assert (U : 0 < u <= / 10 ^ 15) by (unfold u; cbn [pow]; lra). assert (UR : 0 <= u * Rabs re) by (apply Rmult_le_pos; [lra|apply Rabs_pos]). assert (T97 : 0 < pow2 (-97)) by apply bpow_gt_0.
  assert (CL : Rabs V <= 41 / 100 -> (exists v, fst w = a_mul f64_arith (a_div f64_arith (f64_ofZ 1) (f64_ofZ 2)) (log1p v) /\
    is_finite v = true /\ Rabs (B2R v - V) <= pow2 (-53) * Rabs V + pow2 (-97)) -> is_finite (fst w) = true /\ Rabs (B2R (fst w) - re) <= 5 * u * Rabs re + pow2 (-97)).
  { intros HV (v & E & Fv & Ev). rewrite E, ER. now apply (dd_close log1p v V). }
  assert (M : is_finite (fst w) = true /\ Rabs (B2R (fst w) - re) <= 23 * u * Rabs re + pow2 (-97)).
  { destruct (dd_split log log1p hypot atan2 x y Fx Fy) as [[E HV]|[HV Ev]]; fold X Y V in HV.
    - fold w in E. rewrite E, EH.
      assert (LH : pow2 (-1000) <= sqrt ((1 + X) * (1 + X) + Y * Y)).
      { assert (A : forall c k, pow2 (-1000) <= Rabs c -> 0 <= k -> pow2 (-1000) <= sqrt (c * c + k)).
        { intros c k Hc Hk. replace (c * c) with (Rabs c * Rabs c) by (rewrite <- Rabs_mult; apply Rabs_pos_eq, Rle_0_sqr).
          eapply Rle_trans; [exact Hc|]. rewrite <- (sqrt_square (Rabs c)) at 1 by apply Rabs_pos. apply sqrt_le_1_alt. lra. }
        destruct NZ as [NZ|NZ].
        - apply A; [|apply Rle_0_sqr].
          assert (Ml : multiple (-1000) (1 + X) \/ pow2 (-1000) <= Rabs (1 + X)).
          { destruct (Rle_dec (1 / 2) (Rabs X)) as [HX|HX].
            - left. apply multiple_plus.
              + apply (multiple_le 0); [lia|]. exists 1%Z. cbn. lra.
              + apply (multiple_le (0 - 53)); [lia|]. apply (format_multiple 53 (-1074) X 0); [reflexivity|apply (generic_format_B2R f64_prec f64_emax)| |lia]. change (pow2 (0 - 1)) with (/ 2). lra.
            - right. apply Rle_trans with (1 / 2); [replace (1 / 2) with (pow2 (-1)) by (cbn; lra); apply bpow_le; lia|]. assert (Rabs X <= 1 / 2) by lra. apply Rabs_le_inv in H. rewrite Rabs_pos_eq; lra. }
          destruct Ml as [[m Em]|Ml]; [|exact Ml].
          rewrite Em, Rabs_mult, (Rabs_pos_eq (pow2 _)) by apply bpow_ge_0. rewrite <- (Rmult_1_l (pow2 (-1000))) at 1. apply Rmult_le_compat_r; [apply bpow_ge_0|].
          rewrite <- abs_IZR. apply IZR_le. assert (m <> 0)%Z; [|lia]. intros ->. rewrite Rmult_0_l in Em. apply NZ. lra.
        - rewrite Rplus_comm. apply A; [exact NZ|apply Rle_0_sqr]. }
      destruct (dd_far log hypot x y GL GH Fx Fy Bx By LH) as [D1 D2].
      + fold X Y. rewrite WV. assert (P : 0 < 1 + V) by (rewrite <- WV, <- RE; apply exp_pos).
        unfold Rabs in HV. destruct (Rcase_abs V) as [c|c].
        * right. apply Rle_trans with (sqrt ((79 / 100) * (79 / 100))); [apply sqrt_le_1_alt; lra|rewrite sqrt_square; lra].
        * left. apply Rle_trans with (sqrt ((1178 / 1000) * (1178 / 1000))); [rewrite sqrt_square; lra|apply sqrt_le_1_alt; lra].
      + fold X Y in D1, D2. split; [exact D1|]. lra.
    - destruct (CL HV Ev) as [C1 C2]. split; [exact C1|]. lra. }
  split; [apply M|]. split; [exact I1|]. split; [apply M|]. split; [|exact I2].
  intros HR. rewrite RE, WV in HR. apply CL; [apply Rabs_le; lra|]. apply dd_ieee_near; [exact Fx|exact Fy|]. fold X Y V. apply Rabs_le. lra.
Qed.

(** functions meeting the hypotheses exist *)
Lemma is_arg_unique a b s t t' : is_arg a b s t -> is_arg a b s t' -> t = t'.
Proof.
  intros A A'. destruct (Rtotal_order b 0) as [B|[B|B]].
  - apply is_arg_opp in A, A'. apply arg_upper in A; [|lra]. apply arg_upper in A'; [|lra]. lra.
  - destruct (Rtotal_order a 0) as [C|[C|C]].
    + destruct A as (_ & _ & A), A' as (_ & _ & A'). now rewrite A, A'.
    + destruct A as (_ & (r & R & E1 & E2) & _). exfalso. assert (cos t = 0) by (apply (Rmult_eq_reg_l r); lra). assert (sin t = 0) by (apply (Rmult_eq_reg_l r); lra).
      pose proof (sin2_cos2 t) as Q. unfold Rsqr in Q. rewrite H, H0 in Q. lra.
    + apply arg_right in A, A'; [|exact C|exact C]. congruence.
  - apply arg_upper in A, A'; [|exact B|exact B]. congruence.
Qed.
Lemma good_hypot_exists : good_hypot (fun a b => f64_of_R (sqrt (B2R a * B2R a + B2R b * B2R b))).
Proof.
  intros a b _ _ h H. fold h. assert (B : Rabs h <= pow2 1000) by (rewrite Rabs_pos_eq; [exact H|apply sqrt_pos]).
  destruct (rep_of_R 1000 _ ltac:(lia) B) as (A1 & A2 & _). split; [exact A1|]. rewrite A2. pose proof (rerr h) as R. rewrite (Rabs_pos_eq h) in R by apply sqrt_pos.
  replace (pow2 (-52)) with (2 * u) by (unfold u; cbn; lra). assert (E : eta <= pow2 (-1074)) by (unfold eta; apply bpow_le; lia). assert (0 <= u * h) by (apply Rmult_le_pos; [unfold u; lra|apply sqrt_pos]). lra.
Qed.
Definition atan2_R (a b : R) (s : bool) : R :=
  if Rlt_dec 0 b then PI / 2 + atan (- a / b) else if Rlt_dec b 0 then - (PI / 2 + atan (- a / - b)) else if Rlt_dec a 0 then (if s then - PI else PI) else atan (b / a).
Lemma atan2_R_arg a b s t : is_arg a b s t -> atan2_R a b s = t.
Proof.
  intros A. unfold atan2_R. destruct (Rlt_dec 0 b) as [B|B]; [symmetry; exact (arg_upper _ _ _ _ B A)|].
  destruct (Rlt_dec b 0) as [C|C]; [apply is_arg_opp in A; apply arg_upper in A; lra|].
  destruct (Rlt_dec a 0) as [D|D]; [destruct A as (_ & _ & A); symmetry; apply A; lra|].
  destruct (Req_dec a 0) as [Z|Z]; [|symmetry; apply (arg_right _ _ s); [lra|exact A]].
  destruct A as (_ & (r & R & E1 & E2) & _). exfalso. assert (cos t = 0) by (apply (Rmult_eq_reg_l r); lra). assert (sin t = 0) by (apply (Rmult_eq_reg_l r); lra).
  pose proof (sin2_cos2 t) as Q. unfold Rsqr in Q. rewrite H, H0 in Q. lra.
Qed.
Lemma good_atan2_exists : good_atan2 (fun b a => f64_of_R (atan2_R (B2R a) (B2R b) (Bsign b))).
Proof.
  intros a b t _ _ A. rewrite (atan2_R_arg _ _ _ _ A). pose proof PI_4. assert (B : Rabs t <= pow2 2) by (change (pow2 2) with 4; apply Rabs_le; destruct A as (A & _); lra).
  destruct (rep_of_R 2 _ ltac:(lia) B) as (A1 & A2 & _). split; [exact A1|]. rewrite A2. pose proof (rerr t) as R.
  replace (pow2 (-52)) with (2 * u) by (unfold u; cbn; lra). assert (E : eta <= pow2 (-1074)) by (unfold eta; apply bpow_le; lia). assert (0 <= u * Rabs t) by (apply Rmult_le_pos; [unfold u; lra|apply Rabs_pos]). lra.
Qed.
