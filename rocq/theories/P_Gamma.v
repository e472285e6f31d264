(** * P_Gamma: existence, recurrence and an interpolation inequality for the gamma function *)
From Coq Require Import Reals Lra Lia Psatz.
From Coquelicot Require Import Coquelicot.
From Verif Require Import S_Gamma.
Open Scope R_scope.

Definition gf (x t : R) : R := Rpower t (x - 1) * exp (- t).
Lemma exp_le_1 z : z <= 0 -> exp z <= 1.
Proof. intros [H| ->]; [rewrite <- exp_0; left; now apply exp_increasing|rewrite exp_0; lra]. Qed.
Lemma gf_pos x t : 0 < gf x t.
Proof. unfold gf. apply Rmult_lt_0_compat; apply exp_pos. Qed.
Lemma gf_cont x t : 0 < t -> continuous (gf x) t.
Proof. intros H. apply (ex_derive_continuous (K := R_AbsRing) (V := R_NormedModule)). unfold gf, Rpower. auto_derive. lra. Qed.
Definition If (x a b : R) : R := RInt (gf x) a b.
Lemma gf_ex x a b : 0 < a -> 0 < b -> ex_RInt (gf x) a b.
Proof.
  intros Ha Hb. apply (ex_RInt_continuous (V := R_CompleteNormedModule)). intros z Hz. apply gf_cont.
  assert (0 < Rmin a b) by now apply Rmin_pos. lra.
Qed.
Lemma If_correct x a b : 0 < a -> 0 < b -> is_RInt (gf x) a b (If x a b).
Proof. intros. apply (RInt_correct (V := R_CompleteNormedModule)). now apply gf_ex. Qed.
Lemma If_chasles x a b c : 0 < a -> 0 < b -> 0 < c -> If x a b + If x b c = If x a c.
Proof. intros. unfold If. apply (RInt_Chasles (V := R_CompleteNormedModule)); now apply gf_ex. Qed.
Lemma If_pos x a b : 0 < a <= b -> 0 <= If x a b.
Proof. intros H. unfold If. apply RInt_ge_0; [lra|apply gf_ex; lra|]. intros t _. left. apply gf_pos. Qed.
Lemma If_mono x a a' b b' : 0 < a' <= a -> a <= b <= b' -> If x a b <= If x a' b'.
Proof.
  intros H1 H2. rewrite <- (If_chasles x a' a b'), <- (If_chasles x a b b') by lra.
  pose proof (If_pos x a' a ltac:(lra)). pose proof (If_pos x b b' ltac:(lra)). lra.
Qed.
(** a bound by an antiderivative *)
Lemma If_derive x a b : 0 < a -> 0 < b -> is_derive (If x a) b (gf x b).
Proof.
  intros Ha Hb. apply (is_derive_RInt (gf x) (If x a) a b); [|now apply gf_cont].
  exists (mkposreal b Hb). intros y Hy. apply If_correct; [exact Ha|].
  cbn in Hy. unfold ball in Hy. cbn in Hy. unfold AbsRing_ball, abs, minus, plus, opp in Hy. cbn in Hy. apply Rabs_def2 in Hy. lra.
Qed.
Lemma If_point x a : If x a a = 0.
Proof. unfold If. rewrite RInt_point. reflexivity. Qed.
Lemma If_le x (F F' : R -> R) a b : 0 < a <= b -> (forall t, a <= t <= b -> is_derive F t (F' t)) -> (forall t, a <= t <= b -> gf x t <= F' t) ->
  If x a b <= F b - F a.
Proof.
  intros H D L. destruct (Req_dec a b) as [<-|N]; [rewrite If_point; lra|].
  destruct (MVT_cor2 (fun b => F b - If x a b) (fun b => F' b - gf x b) a b ltac:(lra)) as (c & E & Hc).
  { intros c Hc. apply is_derive_Reals. apply (is_derive_minus F (If x a) c); [apply D; lra|apply If_derive; lra]. }
  rewrite If_point in E. specialize (L c ltac:(lra)).
  assert (0 <= (F' c - gf x c) * (b - a)) by (apply Rmult_le_pos; lra). lra.
Qed.

(** ** the improper integral as a supremum *)
Definition supG (x v : R) : Prop :=
  (forall a b, 0 < a <= b -> If x a b <= v) /\ (forall eps, 0 < eps -> exists a b, 0 < a <= b /\ v - eps < If x a b).
Lemma is_Gamma_sup x v : is_Gamma x v <-> supG x v.
Proof.
  split.
  - intros H.
    assert (HH : forall eps, 0 < eps -> exists a0 b0, 0 < a0 /\ forall a b, 0 < a < a0 -> b0 < b -> 0 < b -> Rabs (If x a b - v) < eps).
    { intros eps He. unfold is_Gamma, is_RInt_gen, filterlimi, filter_le, filtermapi in H.
      destruct (H (ball v eps) (locally_ball v (mkposreal eps He))) as [Q R' HQ HR HH].
      destruct HQ as [d HQ]. destruct HR as [M HM]. exists (pos d), M. split; [apply cond_pos|]. intros a b Ha Hb Hb0.
      destruct (HH a b) as (y & Y1 & Y2).
      - apply HQ; [|lra]. cbn. unfold AbsRing_ball, abs, minus, plus, opp. cbn. rewrite Rabs_right; lra.
      - now apply HM.
      - cbn in Y1. assert (E : If x a b = y) by (apply is_RInt_unique; exact Y1). rewrite E. exact Y2. }
    split.
    + intros a b Hab. apply le_epsilon. intros eps He. destruct (HH eps He) as (a0 & b0 & H0 & HI).
      assert (Hm : 0 < Rmin a (a0 / 2)) by (apply Rmin_pos; lra).
      specialize (HI (Rmin a (a0 / 2)) (Rmax b (b0 + 1))).
      pose proof (Rmin_l a (a0 / 2)). pose proof (Rmin_r a (a0 / 2)). pose proof (Rmax_l b (b0 + 1)). pose proof (Rmax_r b (b0 + 1)).
      specialize (HI ltac:(lra) ltac:(lra) ltac:(lra)). apply Rabs_def2 in HI.
      pose proof (If_mono x a (Rmin a (a0 / 2)) b (Rmax b (b0 + 1)) ltac:(lra) ltac:(lra)). lra.
    + intros eps He. destruct (HH eps He) as (a0 & b0 & H0 & HI).
      exists (a0 / 2), (Rmax a0 (b0 + 1)). pose proof (Rmax_l a0 (b0 + 1)). pose proof (Rmax_r a0 (b0 + 1)).
      specialize (HI (a0 / 2) (Rmax a0 (b0 + 1)) ltac:(lra) ltac:(lra) ltac:(lra)). apply Rabs_def2 in HI. lra.
  - intros [U S]. unfold is_Gamma, is_RInt_gen, filterlimi, filter_le, filtermapi. intros P [eps HP].
    destruct (S eps (cond_pos eps)) as (a0 & b0 & H0 & HS).
    apply (Filter_prod _ _ _ (fun a => 0 < a <= a0) (fun b => b0 < b)).
    + exists (mkposreal a0 (proj1 H0)). intros y Hy Hy0. cbn in Hy. unfold AbsRing_ball, abs, minus, plus, opp in Hy. cbn in Hy.
      apply Rabs_def2 in Hy. lra.
    + exists b0. auto.
    + intros a b Ha Hb. exists (If x a b). split; [apply If_correct; lra|]. apply HP.
      pose proof (U a b ltac:(lra)) as Q1. pose proof (If_mono x a0 a b0 b ltac:(lra) ltac:(lra)) as Q2. set (I := If x a b) in *. clearbody I.
      cbn. unfold AbsRing_ball, abs, minus, plus, opp. cbn. apply Rabs_def1; lra.
Qed.
Lemma supG_unique x v w : supG x v -> supG x w -> v = w.
Proof.
  intros [U S] [U' S']. apply Rle_antisym; apply le_epsilon; intros eps He.
  - destruct (S eps He) as (a & b & H & L). specialize (U' a b H). lra.
  - destruct (S' eps He) as (a & b & H & L). specialize (U a b H). lra.
Qed.
Lemma is_Gamma_unique x v w : is_Gamma x v -> is_Gamma x w -> v = w.
Proof. intros H1 H2. apply is_Gamma_sup in H1, H2. now apply (supG_unique x). Qed.

(** ** existence *)
Lemma ln_le_tangent c t : 0 < c -> 0 < t -> ln t <= t / c + ln c - 1.
Proof.
  intros Hc Ht. assert (E : ln t = ln (t / c) + ln c).
  { rewrite <- ln_mult; [f_equal; field; lra| |exact Hc]. apply Rdiv_lt_0_compat; lra. }
  assert (0 < t / c) by (apply Rdiv_lt_0_compat; lra).
  pose proof (exp_ineq1_le (ln (t / c))) as Hq. rewrite exp_ln in Hq by lra. lra.
Qed.
Lemma gf_tail x : exists K, 0 < K /\ forall t, 1 <= t -> gf x t <= K * exp (- (t / 2)).
Proof.
  set (c := 2 * Rabs (x - 1) + 1). assert (Hc : 0 < c) by (unfold c; pose proof (Rabs_pos (x - 1)); lra).
  exists (exp (Rabs (x - 1) * ln c)). split; [apply exp_pos|]. intros t Ht. unfold gf, Rpower. rewrite <- !exp_plus.
  destruct (Rle_dec ((x - 1) * ln t + - t) (Rabs (x - 1) * ln c + - (t / 2))) as [L|N].
  { destruct L as [L|L]; [left; now apply exp_increasing|rewrite L; lra]. }
  exfalso. apply N. clear N. assert (0 <= ln t) by (rewrite <- ln_1; destruct Ht as [Ht|<-]; [left; apply ln_increasing; lra|lra]).
  assert (A1 : (x - 1) * ln t <= Rabs (x - 1) * ln t) by (apply Rmult_le_compat_r; [assumption|apply Rle_abs]).
  assert (A2 : Rabs (x - 1) * ln t <= Rabs (x - 1) * (t / c + ln c - 1)).
  { apply Rmult_le_compat_l; [apply Rabs_pos|apply ln_le_tangent; lra]. }
  assert (A3 : Rabs (x - 1) * (t / c) <= t / 2).
  { unfold Rdiv. rewrite (Rmult_comm t (/ c)), <- Rmult_assoc, (Rmult_comm t). apply Rmult_le_compat_r; [lra|].
    apply (Rmult_le_reg_r c); [lra|]. rewrite Rmult_assoc, Rinv_l by lra. unfold c. lra. }
  pose proof (Rabs_pos (x - 1)). lra.
Qed.
Lemma If_bounded x : 0 < x -> exists M, forall a b, 0 < a <= b -> If x a b <= M.
Proof.
  intros Hx. destruct (gf_tail x) as (K & HK & T). exists (/ x + 2 * K). intros a b Hab.
  set (a' := Rmin a 1). set (b' := Rmax b 1).
  assert (A1 : 0 < a') by (apply Rmin_pos; lra). assert (A2 : a' <= a) by apply Rmin_l. assert (A3 : a' <= 1) by apply Rmin_r.
  assert (B1 : b <= b') by apply Rmax_l. assert (B2 : 1 <= b') by apply Rmax_r.
  eapply Rle_trans; [apply (If_mono x a a' b b'); lra|]. rewrite <- (If_chasles x a' 1 b') by lra.
  apply Rplus_le_compat.
  - eapply Rle_trans; [apply (If_le x (fun t => / x * Rpower t x) (fun t => Rpower t (x - 1)) a' 1); [lra| |]|].
    + intros t Ht. unfold Rpower. auto_derive; [lra|].
      replace ((x - 1) * ln t) with (x * ln t - ln t) by ring. unfold Rminus. rewrite exp_plus, (exp_Ropp (ln t)), exp_ln by lra. field. lra.
    + intros t Ht. unfold gf. rewrite <- (Rmult_1_r (Rpower t (x - 1))) at 2. apply Rmult_le_compat_l; [left; apply exp_pos|].
      rewrite <- exp_0. destruct (Req_dec t 0) as [->|]; [rewrite Ropp_0; lra|]. left. apply exp_increasing. lra.
    + cbv beta. unfold Rpower at 1. rewrite ln_1, Rmult_0_r, exp_0. assert (0 < / x) by now apply Rinv_0_lt_compat.
      assert (0 < / x * Rpower a' x) by (apply Rmult_lt_0_compat; [assumption|apply exp_pos]). lra.
  - eapply Rle_trans; [apply (If_le x (fun t => - 2 * K * exp (- (t / 2))) (fun t => K * exp (- (t / 2))) 1 b'); [lra| |]|].
    + intros t Ht. auto_derive; [trivial|]. unfold Rdiv. field.
    + intros t Ht. apply T. lra.
    + cbv beta. assert (0 < K * exp (- (b' / 2))) by (apply Rmult_lt_0_compat; [assumption|apply exp_pos]).
      assert (exp (- (1 / 2)) <= 1) by (apply exp_le_1; lra).
      assert (K * exp (- (1 / 2)) <= K * 1) by (apply Rmult_le_compat_l; lra). lra.
Qed.
Lemma Gamma_exists x : 0 < x -> exists v, is_Gamma x v.
Proof.
  intros Hx. destruct (If_bounded x Hx) as [M HM].
  destruct (completeness (fun y => exists a b, 0 < a <= b /\ y = If x a b)) as [v [U L]].
  - exists M. intros y (a & b & H & ->). now apply HM.
  - exists (If x 1 1), 1, 1. split; [lra|reflexivity].
  - exists v. apply is_Gamma_sup. split.
    + intros a b H. apply U. now exists a, b.
    + intros eps He. apply Classical_Pred_Type.not_all_not_ex. intros N.
      assert (v <= v - eps); [|lra]. apply L. intros y (a & b & H & ->).
      apply Rnot_lt_le. intros C. apply (N a). exists b. auto.
Qed.
Definition Gam (x : R) : R := RInt_gen (gf x) (at_right 0) (Rbar_locally p_infty).
Lemma is_Gamma_Gam x v : is_Gamma x v -> Gam x = v.
Proof. intros H. unfold Gam. apply is_RInt_gen_unique. exact H. Qed.
Lemma Gam_sup x : 0 < x -> supG x (Gam x).
Proof. intros Hx. destruct (Gamma_exists x Hx) as [v Hv]. rewrite (is_Gamma_Gam x v Hv). now apply is_Gamma_sup. Qed.
Lemma Gam_correct x : 0 < x -> is_Gamma x (Gam x).
Proof. intros Hx. apply is_Gamma_sup. now apply Gam_sup. Qed.
Lemma If_Gam x a b : 0 < x -> 0 < a <= b -> If x a b <= Gam x.
Proof. intros Hx H. now apply (Gam_sup x Hx). Qed.
Lemma Gam_le x M : 0 < x -> (forall a b, 0 < a <= b -> If x a b <= M) -> Gam x <= M.
Proof.
  intros Hx H. apply le_epsilon. intros eps He. destruct (proj2 (Gam_sup x Hx) eps He) as (a & b & Hab & L). specialize (H a b Hab). lra.
Qed.
Lemma Gam_pos x : 0 < x -> 0 < Gam x.
Proof.
  intros Hx. apply Rlt_le_trans with (If x 1 2); [|apply If_Gam; lra].
  unfold If. apply RInt_gt_0; [lra| |].
  - intros t _. apply gf_pos.
  - intros t Ht. apply gf_cont. lra.
Qed.

(** ** the recurrence *)
Lemma parts x a b : 0 < a <= b -> If (x + 1) a b = Rpower a x * exp (- a) - Rpower b x * exp (- b) + x * If x a b.
Proof.
  intros H. destruct (Req_dec a b) as [<-|N]; [rewrite !If_point; ring|].
  destruct (MVT_cor2 (fun b => If (x + 1) a b - x * If x a b + Rpower b x * exp (- b)) (fun _ => 0) a b ltac:(lra)) as (c & E & Hc).
  { intros c Hc. apply is_derive_Reals.
    pose proof (If_derive (x + 1) a c ltac:(lra) ltac:(lra)) as D1. pose proof (If_derive x a c ltac:(lra) ltac:(lra)) as D2.
    evar_last.
    - apply (is_derive_plus (fun b => If (x + 1) a b - x * If x a b) (fun b => Rpower b x * exp (- b)) c).
      + apply (is_derive_minus (If (x + 1) a) (fun b => x * If x a b) c); [exact D1|apply (is_derive_scal (If x a) c x); exact D2].
      + unfold Rpower. auto_derive; [lra|reflexivity].
    - unfold plus, minus, opp, scal, plus, mult; cbn. unfold mult; cbn. unfold gf, Rpower.
      replace ((x + 1 - 1) * ln c) with (x * ln c) by ring.
      replace ((x - 1) * ln c) with (x * ln c - ln c) by ring.
      unfold Rminus. rewrite (exp_plus (x * ln c) (- ln c)), (exp_Ropp (ln c)), exp_ln by lra. field. lra. }
  rewrite !If_point in E. lra.
Qed.
Lemma Rpower_small x eps : 0 < x -> 0 < eps -> exists a, 0 < a /\ forall a', 0 < a' <= a -> Rpower a' x * exp (- a') <= eps.
Proof.
  intros Hx He. exists (exp (ln eps / x)). split; [apply exp_pos|]. intros a' H.
  assert (E : Rpower a' x <= eps).
  { unfold Rpower. rewrite <- (exp_ln eps He) at 1. assert (L : ln a' <= ln eps / x).
    { rewrite <- (ln_exp (ln eps / x)). destruct (proj2 H) as [L| ->]; [left; apply ln_increasing; lra|lra]. }
    assert (L2 : x * ln a' <= ln eps) by (apply (Rmult_le_compat_l x) in L; [|lra]; replace (x * (ln eps / x)) with (ln eps) in L by (field; lra); exact L).
    rewrite exp_ln by exact He. rewrite <- (exp_ln eps He) at 1. destruct L2 as [L2|L2]; [left; now apply exp_increasing|rewrite L2; lra]. }
  assert (exp (- a') <= 1) by (apply exp_le_1; lra).
  rewrite <- (Rmult_1_r eps). apply Rmult_le_compat; try (left; apply exp_pos); assumption.
Qed.
Lemma Rpower_exp_small x eps : 0 < eps -> exists b, forall b', b <= b' -> Rpower b' x * exp (- b') <= eps.
Proof.
  intros He. destruct (gf_tail (x + 1)) as (K & HK & T). exists (Rmax 1 (2 * (K / eps))). intros b' Hb.
  pose proof (Rmax_l 1 (2 * (K / eps))). pose proof (Rmax_r 1 (2 * (K / eps))).
  specialize (T b' ltac:(lra)). unfold gf in T. replace (x + 1 - 1) with x in T by ring. eapply Rle_trans; [exact T|].
  rewrite exp_Ropp. pose proof (exp_ineq1_le (b' / 2)). assert (0 < K / eps) by (apply Rdiv_lt_0_compat; lra).
  apply (Rmult_le_reg_r (exp (b' / 2))); [apply exp_pos|]. rewrite Rmult_assoc, Rinv_l by (apply Rgt_not_eq, exp_pos). rewrite Rmult_1_r.
  apply Rle_trans with (eps * (K / eps)); [right; field; lra|]. apply Rmult_le_compat_l; lra.
Qed.
Lemma Gam_S x : 0 < x -> Gam (x + 1) = x * Gam x.
Proof.
  intros Hx. apply Rle_antisym.
  - apply Gam_le; [lra|]. intros a b H. apply le_epsilon. intros eps He.
    destruct (Rpower_small x eps Hx He) as (a0 & Ha0 & Hs). set (a' := Rmin a a0).
    assert (0 < a') by (apply Rmin_pos; lra). assert (a' <= a) by apply Rmin_l. assert (a' <= a0) by apply Rmin_r.
    eapply Rle_trans; [apply (If_mono (x + 1) a a' b b); lra|]. rewrite parts by lra.
    specialize (Hs a' ltac:(lra)). assert (0 < Rpower b x * exp (- b)) by (apply Rmult_lt_0_compat; apply exp_pos).
    pose proof (If_Gam x a' b Hx ltac:(lra)). assert (x * If x a' b <= x * Gam x) by (apply Rmult_le_compat_l; lra). lra.
  - apply Rle_trans with (x * ((Gam (x + 1)) / x)); [|right; field; lra]. apply Rmult_le_compat_l; [lra|].
    apply Gam_le; [lra|]. intros a b H. apply (Rmult_le_reg_l x); [lra|]. replace (x * (Gam (x + 1) / x)) with (Gam (x + 1)) by (field; lra).
    apply le_epsilon. intros eps He. destruct (Rpower_exp_small x eps He) as (b0 & Hs). set (b' := Rmax b b0).
    assert (b <= b') by apply Rmax_l. assert (b0 <= b') by apply Rmax_r. specialize (Hs b' ltac:(lra)).
    eapply Rle_trans; [apply Rmult_le_compat_l; [lra|apply (If_mono x a a b b'); lra]|].
    pose proof (parts x a b' ltac:(lra)). assert (0 < Rpower a x * exp (- a)) by (apply Rmult_lt_0_compat; apply exp_pos).
    pose proof (If_Gam (x + 1) a b' ltac:(lra) ltac:(lra)). lra.
Qed.
Lemma If_1 a b : 0 < a <= b -> If 1 a b = exp (- a) - exp (- b).
Proof.
  intros H. unfold If. apply is_RInt_unique. replace (exp (- a) - exp (- b)) with (minus (- exp (- b)) (- exp (- a))) by (unfold minus, plus, opp; cbn; ring).
  apply (is_RInt_derive (fun t => - exp (- t)) (gf 1)).
  - intros t Ht. rewrite Rmin_left in Ht by lra. unfold gf, Rpower. auto_derive; [trivial|]. replace ((1 - 1) * ln t) with 0 by ring. rewrite exp_0. ring.
  - intros t Ht. rewrite Rmin_left in Ht by lra. apply gf_cont. lra.
Qed.
Lemma Gam_1 : Gam 1 = 1.
Proof.
  apply Rle_antisym.
  - apply Gam_le; [lra|]. intros a b H. rewrite If_1 by exact H. pose proof (exp_pos (- b)).
    assert (exp (- a) <= 1) by (apply exp_le_1; lra). lra.
  - apply le_epsilon. intros eps He.
    destruct (Rpower_exp_small 0 (eps / 2) ltac:(lra)) as (b0 & Hs). set (b := Rmax 1 b0). specialize (Hs b ltac:(apply Rmax_r)).
    unfold Rpower in Hs. rewrite Rmult_0_l, exp_0, Rmult_1_l in Hs.
    set (a := Rmin 1 (eps / 2)). assert (0 < a) by (apply Rmin_pos; lra). assert (a <= 1) by apply Rmin_l. assert (a <= eps / 2) by apply Rmin_r.
    assert (1 <= b) by apply Rmax_l. pose proof (If_Gam 1 a b ltac:(lra) ltac:(lra)) as L. rewrite If_1 in L by lra.
    pose proof (exp_ineq1_le (- a)). lra.
Qed.

(** ** Gamma(y + s) <= y^s Gamma(y) for s in [0, 1] *)
Lemma power_tangent s c t : 0 <= s <= 1 -> 0 < c -> 0 < t -> Rpower t s <= (1 - s) * Rpower c s + s * Rpower c (s - 1) * t.
Proof.
  intros Hs Hc Ht. set (u := ln t - ln c).
  assert (E : t = c * exp u) by (unfold u; unfold Rminus; rewrite exp_plus, exp_Ropp, !exp_ln by lra; field; lra).
  assert (E1 : Rpower t s = Rpower c s * exp (s * u)) by (unfold Rpower, u; rewrite <- exp_plus; f_equal; ring).
  assert (E2 : Rpower c (s - 1) * t = Rpower c s * exp u).
  { unfold Rpower. replace ((s - 1) * ln c) with (s * ln c - ln c) by ring. unfold Rminus. rewrite exp_plus, exp_Ropp, exp_ln by lra. rewrite E at 1. field. lra. }
  rewrite Rmult_assoc, E2, E1. replace ((1 - s) * Rpower c s + s * (Rpower c s * exp u)) with (Rpower c s * (1 - s + s * exp u)) by ring.
  apply Rmult_le_compat_l; [left; apply exp_pos|].
  (* convexity of exp on the segment from 0 to u *)
  assert (T1 : exp (s * u) * (1 - s * u) <= 1).
  { pose proof (exp_ineq1_le (- (s * u))) as Q. apply (Rmult_le_compat_l (exp (s * u))) in Q; [|left; apply exp_pos].
    rewrite <- exp_plus, Rplus_opp_r, exp_0 in Q. lra. }
  assert (T2 : exp (s * u) * (1 + (u - s * u)) <= exp u).
  { pose proof (exp_ineq1_le (u - s * u)) as Q. apply (Rmult_le_compat_l (exp (s * u))) in Q; [|left; apply exp_pos].
    rewrite <- exp_plus in Q. replace (s * u + (u - s * u)) with u in Q by ring. exact Q. }
  assert ((1 - s) * (exp (s * u) * (1 - s * u)) <= (1 - s) * 1) by (apply Rmult_le_compat_l; lra).
  assert (s * (exp (s * u) * (1 + (u - s * u))) <= s * exp u) by (apply Rmult_le_compat_l; lra). lra.
Qed.
Lemma Gam_interp y s : 0 < y -> 0 <= s <= 1 -> Gam (y + s) <= Rpower y s * Gam y.
Proof.
  intros Hy Hs. apply Gam_le; [lra|]. intros a b H.
  assert (B : If (y + s) a b <= (1 - s) * Rpower y s * If y a b + s * Rpower y (s - 1) * If (y + 1) a b).
  { unfold If. rewrite <- (RInt_scal (V := R_CompleteNormedModule) (gf y)), <- (RInt_scal (V := R_CompleteNormedModule) (gf (y + 1))) by (apply gf_ex; lra).
    change ((fun u v : R => RInt (gf (y + s)) a b <= plus u v)
      (RInt (fun x => scal ((1 - s) * Rpower y s) (gf y x)) a b) (RInt (fun x => scal (s * Rpower y (s - 1)) (gf (y + 1) x)) a b)). cbv beta.
    rewrite <- (RInt_plus (V := R_CompleteNormedModule)) by (apply (ex_RInt_scal (V := R_CompleteNormedModule)); apply gf_ex; lra).
    apply RInt_le; [lra|apply gf_ex; lra| |].
    - apply (ex_RInt_plus (V := R_CompleteNormedModule)); apply (ex_RInt_scal (V := R_CompleteNormedModule)); apply gf_ex; lra.
    - intros t Ht. unfold plus, scal; cbn. unfold mult; cbn. unfold gf.
      replace (Rpower t (y + s - 1)) with (Rpower t (y - 1) * Rpower t s) by (unfold Rpower; rewrite <- exp_plus; f_equal; ring).
      replace (Rpower t (y + 1 - 1)) with (Rpower t (y - 1) * t).
      2:{ unfold Rpower. rewrite <- (exp_ln t) at 2 by lra. rewrite <- exp_plus. f_equal. ring. }
      pose proof (power_tangent s y t Hs Hy ltac:(lra)) as Q.
      assert (0 < Rpower t (y - 1) * exp (- t)) by (apply Rmult_lt_0_compat; apply exp_pos).
      apply (Rmult_le_compat_l (Rpower t (y - 1) * exp (- t))) in Q; [|lra]. lra. }
  eapply Rle_trans; [exact B|].
  pose proof (If_Gam y a b Hy H) as G1. pose proof (If_Gam (y + 1) a b ltac:(lra) H) as G2. rewrite Gam_S in G2 by exact Hy.
  assert (P1 : 0 <= (1 - s) * Rpower y s) by (apply Rmult_le_pos; [lra|left; apply exp_pos]).
  assert (P2 : 0 <= s * Rpower y (s - 1)) by (apply Rmult_le_pos; [lra|left; apply exp_pos]).
  apply (Rmult_le_compat_l _ _ _ P1) in G1. apply (Rmult_le_compat_l _ _ _ P2) in G2.
  assert (E : Rpower y (s - 1) * y = Rpower y s) by (unfold Rpower; rewrite <- (exp_ln y) at 2 by lra; rewrite <- exp_plus; f_equal; ring).
  replace (s * Rpower y (s - 1) * (y * Gam y)) with (s * Rpower y s * Gam y) in G2 by (rewrite <- E; ring). lra.
Qed.

(** ** the logarithm *)
Definition lnG (y : R) : R := ln (Gam y).
Lemma lnG_S y : 0 < y -> lnG (y + 1) = ln y + lnG y.
Proof. intros H. unfold lnG. rewrite Gam_S by exact H. apply ln_mult; [exact H|now apply Gam_pos]. Qed.
Lemma lnG_1 : lnG 1 = 0.
Proof. unfold lnG. rewrite Gam_1. apply ln_1. Qed.
Lemma lnG_upper y s : 0 < y -> 0 <= s <= 1 -> lnG (y + s) <= s * ln y + lnG y.
Proof.
  intros Hy Hs. unfold lnG. rewrite <- (ln_exp (s * ln y)), <- ln_mult; [|apply exp_pos|now apply Gam_pos].
  pose proof (Gam_interp y s Hy Hs) as [L|L]; [left; apply ln_increasing; [apply Gam_pos; lra|exact L]|right; f_equal; exact L].
Qed.
Lemma lnG_lower y s : 0 < y -> 0 <= s <= 1 -> s * ln y - 1 / y + lnG y <= lnG (y + s).
Proof.
  intros Hy Hs. pose proof (lnG_upper (y + s) (1 - s) ltac:(lra) ltac:(lra)) as U. replace (y + s + (1 - s)) with (y + 1) in U by ring.
  rewrite lnG_S in U by exact Hy. pose proof (ln_le_tangent y (y + s) Hy ltac:(lra)) as T.
  replace ((y + s) / y) with (1 + s / y) in T by (field; lra).
  assert (Q : s / y <= 1 / y) by (unfold Rdiv; apply Rmult_le_compat_r; [left; now apply Rinv_0_lt_compat|lra]).
  assert (Q1 : (1 - s) * ln (y + s) <= (1 - s) * (1 / y + ln y)) by (apply Rmult_le_compat_l; lra).
  assert (0 < 1 / y) by (apply Rdiv_lt_0_compat; lra).
  assert (0 <= s * (1 / y)) by (apply Rmult_le_pos; lra). lra.
Qed.
(** the values at the integers *)
Lemma Gam_fact n : Gam (INR n + 1) = INR (fact n).
Proof.
  induction n as [|n IH]; [cbn; rewrite Rplus_0_l; apply Gam_1|].
  rewrite Gam_S by (apply lt_0_INR; lia). rewrite S_INR, IH, fact_simpl, mult_INR, S_INR. ring.
Qed.
Lemma Gamma_factorial n : is_Gamma (INR n + 1) (INR (fact n)).
Proof. rewrite <- Gam_fact. apply Gam_correct. pose proof (pos_INR n). lra. Qed.
Lemma Gamma_recurrence x v : 0 < x -> is_Gamma x v -> is_Gamma (x + 1) (x * v).
Proof. intros H G. rewrite <- (is_Gamma_Gam x v G), <- Gam_S by exact H. apply Gam_correct. lra. Qed.
