(** * P_Ramp: exact-arithmetic properties of the ramps, semivariograms, logistic and
    normal functions, yeo_johnson and pow1pm1 *)
From Coq Require Import ZArith Reals List Bool Lra Lia Psatz.
From Flocq Require Import Core BinarySingleNaN.
From Coquelicot Require Import Coquelicot.
From Verif Require Import CSem Num NumP M_Elem S_Elem P_Step.
Open Scope R_scope.

(** ** hyperbolic ramp *)
Definition rh (z : R) : R := z + sqrt (z * z + 1).

Lemma sq1_pos z : 0 < z * z + 1. Proof. pose proof (Rle_0_sqr z) as H. unfold Rsqr in H. lra. Qed.
Lemma sq1_gt z : Rabs z < sqrt (z * z + 1).
Proof.
  rewrite <- (sqrt_Rsqr_abs z). apply sqrt_lt_1; [apply Rle_0_sqr|pose proof (sq1_pos z); lra|unfold Rsqr; lra].
Qed.
Lemma rh_pos z : 0 < rh z.
Proof. unfold rh. pose proof (sq1_gt z). pose proof (Rle_abs (- z)). rewrite Rabs_Ropp in *. lra. Qed.
Lemma rh_prod z : rh z * rh (- z) = 1.
Proof.
  unfold rh. replace (- z * - z) with (z * z) by ring.
  pose proof (sqrt_sqrt (z * z + 1) ltac:(pose proof (sq1_pos z); lra)). set (s := sqrt (z * z + 1)) in *. nra.
Qed.
Lemma rh_mono : strictly_increasing rh.
Proof.
  intros x y H. unfold rh.
  pose proof (rh_pos x). pose proof (rh_pos y). unfold rh in *.
  set (s := sqrt (x * x + 1)) in *. set (t := sqrt (y * y + 1)) in *.
  assert (S : s * s = x * x + 1) by (apply sqrt_sqrt; pose proof (sq1_pos x); lra).
  assert (T : t * t = y * y + 1) by (apply sqrt_sqrt; pose proof (sq1_pos y); lra).
  pose proof (sq1_gt x) as A. pose proof (sq1_gt y) as B. fold s in A. fold t in B.
  pose proof (Rle_abs (- x)). pose proof (Rle_abs x). pose proof (Rle_abs (- y)). pose proof (Rle_abs y).
  rewrite !Rabs_Ropp in *.
  assert (0 < s + t) by lra.
  assert (E : (t - s) * (s + t) = (y - x) * (x + y)) by nra.
  (* y - x + t - s = (y-x) * (1 + (x+y)/(s+t)), and |x+y| < s+t *)
  assert (P : (y + t - (x + s)) * (s + t) = (y - x) * (s + t + x + y)) by nra.
  assert (0 < (y - x) * (s + t + x + y)) by (apply Rmult_lt_0_compat; lra).
  assert (0 < y + t - (x + s)) by nra. lra.
Qed.

Lemma sqrt_scale z : 0 < z -> z * sqrt (1 + 1 / (z * z)) = sqrt (z * z + 1).
Proof.
  intros H. rewrite <- (sqrt_square z) at 1 by lra.
  rewrite <- sqrt_mult.
  - f_equal. field. lra.
  - nra.
  - assert (0 < 1 / (z * z)) by (apply Rdiv_lt_0_compat; nra). lra.
Qed.

Ltac esimp2 := cbn [earith etransc a_cmp a_add a_sub a_mul a_div a_opp a_ofZ a_nan a_inf a_sqrt a_isinf
                    eadd esub emul eopp t_exp t_log t_log1p t_expm1 t_pow eexp eexpm1].

Lemma std_hyp_val x : std_hyperbolic_ramp earith (Fin x) = Fin (rh (x / 2)).
Proof.
  unfold std_hyperbolic_ramp. esimp2. destruct (eqb ecmp (Fin x) (Fin 0)) eqn:E0.
  { apply eqb_Fin in E0. subst x. f_equal. unfold rh. replace (0 / 2 * (0 / 2) + 1) with 1 by field. rewrite sqrt_1. field. }
  apply eqb_Fin_false in E0. rewrite ediv_Fin by lra. set (z := x / 2).
  assert (Hz : z <> 0) by (unfold z; lra). clearbody z. esimp2.
  assert (Hzz : 0 < z * z) by nra.
  assert (Hi : 0 < 1 / (z * z)) by (apply Rdiv_lt_0_compat; lra).
  destruct (geb ecmp (Fin z) (Fin 1)) eqn:E1.
  { apply geb_Fin in E1. rewrite ediv_Fin by lra. esimp2. rewrite esqrt_Fin by lra. esimp2. f_equal.
    rewrite Rmult_plus_distr_l, Rmult_1_r. rewrite sqrt_scale by lra. reflexivity. }
  apply geb_Fin_false in E1. destruct (gtb ecmp (Fin z) (Fin 0)) eqn:E2.
  { rewrite esqrt_Fin by lra. reflexivity. }
  apply gtb_Fin_false in E2. assert (Hn : z < 0) by lra.
  assert (Hinv : rh z = 1 / rh (- z)).
  { pose proof (rh_prod z). pose proof (rh_pos (- z)). apply Rmult_eq_reg_r with (rh (- z)); [|lra].
    rewrite H. field. lra. }
  destruct (gtb ecmp (Fin z) (Fin (-1))) eqn:E3.
  { rewrite esqrt_Fin by lra. esimp2. pose proof (rh_pos (- z)) as P. unfold rh in P.
    replace (- z * - z) with (z * z) in P by ring.
    rewrite ediv_Fin by lra. f_equal. rewrite Hinv. unfold rh. replace (- z * - z) with (z * z) by ring.
    f_equal. ring. }
  apply gtb_Fin_false in E3. rewrite !ediv_Fin by lra. esimp2. rewrite esqrt_Fin by lra. esimp2.
  pose proof (sqrt_pos (1 + 1 / (z * z))). rewrite ediv_Fin by lra. f_equal.
  rewrite Hinv. unfold rh. rewrite <- (sqrt_scale (- z)) by lra.
  replace (- z * - z) with (z * z) by ring. field. repeat split; try lra.
  assert (- z + - z * sqrt (1 + 1 / (z * z)) = - z * (1 + sqrt (1 + 1 / (z * z)))) by ring. nra.
Qed.

Lemma hyp_val x a : 0 < a -> hyperbolic_ramp earith (Fin x) (Fin a) = Fin (a * rh (x / a / 2)).
Proof.
  intros H. unfold hyperbolic_ramp. esimp2. rewrite (proj2 (eqb_Fin_false _ _)) by lra.
  rewrite (proj2 (ltb_Fin_false _ _)) by lra. rewrite ediv_Fin by lra. rewrite std_hyp_val. reflexivity.
Qed.

Lemma hyp_form x a : 0 < a -> a * rh (x / a / 2) = (x + sqrt (x ^ 2 + 4 * a ^ 2)) / 2.
Proof.
  intros H. unfold rh.
  replace (x ^ 2 + 4 * a ^ 2) with ((2 * a) ^ 2 * (x / a / 2 * (x / a / 2) + 1)) by (field; lra).
  rewrite sqrt_mult; [|nra|pose proof (sq1_pos (x / a / 2)); lra].
  rewrite sqrt_pow2 by lra. field. lra.
Qed.

Theorem hyperbolic_ramp_shape a : 0 < a ->
  exists f, computes (fun x => hyperbolic_ramp earith x (Fin a)) f /\ smooth_ramp f a /\
    (forall x, f x * f (- x) = a ^ 2) /\ (forall x, f x = (x + sqrt (x ^ 2 + 4 * a ^ 2)) / 2).
Proof.
  intros H. exists (fun x => a * rh (x / a / 2)). split; [intros x; apply hyp_val; exact H|].
  assert (Hm : forall x y, x < y -> x / a / 2 < y / a / 2).
  { intros x y Hxy. assert (x / a < y / a) by (apply Rmult_lt_compat_r; [apply Rinv_0_lt_compat; lra|exact Hxy]). lra. }
  assert (An : forall x, a * rh (x / a / 2) - a * rh (- x / a / 2) = x).
  { intros x. unfold rh. replace (- x / a / 2) with (- (x / a / 2)) by (field; lra).
    replace (- (x / a / 2) * - (x / a / 2)) with (x / a / 2 * (x / a / 2)) by ring. field. lra. }
  assert (Pos : forall x, 0 < a * rh (x / a / 2)) by (intros x; apply Rmult_lt_0_compat; [lra|apply rh_pos]).
  assert (Z : a * rh (0 / a / 2) = a).
  { unfold rh. replace (0 / a / 2) with 0 by (field; lra). rewrite Rmult_0_l, Rplus_0_l, Rplus_0_l, sqrt_1. ring. }
  assert (Inc : strictly_increasing (fun x => a * rh (x / a / 2))).
  { intros x y Hxy. apply Rmult_lt_compat_l; [lra|]. apply rh_mono, Hm, Hxy. }
  split; [split|split].
  - intros x. unfold Rmax. destruct (Rle_dec x 0); [apply Pos|]. specialize (An x). specialize (Pos (- x)). lra.
  - intros x. unfold Rmax. destruct (Rle_dec x 0) as [Hx|Hx].
    + destruct Hx as [Hx|Hx]; [specialize (Inc x 0 Hx); cbv beta in Inc; lra|subst x; lra].
    + specialize (An x). specialize (Inc (- x) 0 ltac:(lra)). cbv beta in Inc. lra.
  - exact Inc.
  - exact An.
  - exact Z.
  - intros x. replace (- x / a / 2) with (- (x / a / 2)) by (field; lra).
    pose proof (rh_prod (x / a / 2)) as P. simpl. rewrite Rmult_1_r.
    transitivity (a * a * (rh (x / a / 2) * rh (- (x / a / 2)))); [ring|]. rewrite P. ring.
  - intros x. apply hyp_form. exact H.
Qed.

(** ** exponential ramp *)
Definition lg2 (t : R) : R := ln t / ln 2.
Lemma ln2_pos : 0 < ln 2. Proof. rewrite <- ln_1. apply ln_increasing; lra. Qed.

Definition re (x : R) : R := lg2 (1 + Rpower 2 x).

Lemma Rpower2_pos x : 0 < Rpower 2 x. Proof. apply exp_pos. Qed.

Lemma re_anti x : re x - re (- x) = x.
Proof.
  unfold re, lg2. pose proof ln2_pos. pose proof (Rpower2_pos x). pose proof (Rpower2_pos (- x)).
  assert (E : 1 + Rpower 2 x = Rpower 2 x * (1 + Rpower 2 (- x))).
  { rewrite Rmult_plus_distr_l, <- Rpower_plus. replace (x + - x) with 0 by ring. rewrite Rpower_O by lra. ring. }
  rewrite E, ln_mult by lra. unfold Rpower at 1. rewrite ln_exp. field. lra.
Qed.
Lemma re_mono : strictly_increasing re.
Proof.
  intros x y H. unfold re, lg2. apply Rmult_lt_compat_r; [apply Rinv_0_lt_compat, ln2_pos|].
  pose proof (Rpower2_pos x). apply ln_increasing; [lra|].
  apply Rplus_lt_compat_l. apply Rpower_lt; lra.
Qed.
Lemma re_pos x : 0 < re x.
Proof.
  unfold re, lg2. apply Rdiv_lt_0_compat; [|apply ln2_pos]. rewrite <- ln_1.
  apply ln_increasing; [lra|]. pose proof (Rpower2_pos x). lra.
Qed.
Lemma re_0 : re 0 = 1.
Proof. unfold re, lg2. rewrite Rpower_O by lra. replace (1 + 1) with 2 by ring. field. pose proof ln2_pos. lra. Qed.

Lemma epow2 x : epow (Fin 2) (Fin x) = Fin (Rpower 2 x).
Proof.
  unfold epow. destruct (Rcompare_spec x 0) as [L|E|L].
  - rewrite Rcompare_Gt by lra. reflexivity.
  - subst x. rewrite Rpower_O by lra. reflexivity.
  - rewrite Rcompare_Gt by lra. reflexivity.
Qed.
Lemma elog1p_Fin a : -1 < a -> elog1p (Fin a) = Fin (ln (1 + a)).
Proof. intros H. unfold elog1p. rewrite Rcompare_Gt by lra. reflexivity. Qed.
Lemma elog_pos a : 0 < a -> elog (Fin a) = Fin (ln a).
Proof. intros H. unfold elog. rewrite Rcompare_Gt by lra. reflexivity. Qed.

Lemma std_exp_val x : std_exponential_ramp earith etransc (Fin (ln 2)) (Fin x) = Fin (re x).
Proof.
  unfold std_exponential_ramp. esimp2. pose proof ln2_pos. destruct (eqb ecmp (Fin x) (Fin 0)) eqn:E0.
  { apply eqb_Fin in E0. subst x. rewrite re_0. reflexivity. }
  pose proof (Rpower2_pos x). pose proof (Rpower2_pos (- x)).
  rewrite !epow2, !elog1p_Fin, !ediv_Fin by lra. esimp2.
  destruct (gtb ecmp (Fin x) (Fin 0)); [|reflexivity].
  f_equal. pose proof (re_anti x). change (ln (1 + Rpower 2 (- x)) / ln 2) with (re (- x)). lra.
Qed.

Theorem exponential_ramp_shape a : 0 < a ->
  exists f, computes (fun x => exponential_ramp earith etransc (Fin (ln 2)) x (Fin a)) f /\ smooth_ramp f a /\
    (forall x, f x = a * (ln (1 + Rpower 2 (x / a)) / ln 2)).
Proof.
  intros H. exists (fun x => a * re (x / a)). split; [|split; [|reflexivity]].
  - intros x. unfold exponential_ramp. esimp2. rewrite (proj2 (eqb_Fin_false _ _)) by lra.
    rewrite (proj2 (ltb_Fin_false _ _)) by lra. rewrite ediv_Fin by lra. rewrite std_exp_val. reflexivity.
  - assert (Hm : forall x y, x < y -> x / a < y / a)
      by (intros x y Hxy; apply Rmult_lt_compat_r; [apply Rinv_0_lt_compat; lra|exact Hxy]).
    assert (An : forall x, a * re (x / a) - a * re (- x / a) = x).
    { intros x. replace (- x / a) with (- (x / a)) by (field; lra).
      pose proof (re_anti (x / a)) as Q. rewrite <- Rmult_minus_distr_l, Q. field. lra. }
    assert (Pos : forall x, 0 < a * re (x / a)) by (intros x; apply Rmult_lt_0_compat; [lra|apply re_pos]).
    assert (Z : a * re (0 / a) = a) by (replace (0 / a) with 0 by (field; lra); rewrite re_0; ring).
    assert (Inc : strictly_increasing (fun x => a * re (x / a)))
      by (intros x y Hxy; apply Rmult_lt_compat_l; [lra|]; apply re_mono, Hm, Hxy).
    split.
    + intros x. unfold Rmax. destruct (Rle_dec x 0); [apply Pos|]. specialize (An x). specialize (Pos (- x)). lra.
    + intros x. unfold Rmax. destruct (Rle_dec x 0) as [Hx|Hx].
      * destruct Hx as [Hx|Hx]; [specialize (Inc x 0 Hx); cbv beta in Inc; lra|subst x; lra].
      * specialize (An x). specialize (Inc (- x) 0 ltac:(lra)). cbv beta in Inc. lra.
    + exact Inc.
    + exact An.
    + exact Z.
Qed.

(** the gap of the exponential ramp decays exponentially *)
Lemma ln_1p_le u : 0 <= u -> ln (1 + u) <= u.
Proof.
  intros H. rewrite <- (ln_exp u) at 2. destruct H as [H|H]; [|subst u; rewrite Rplus_0_r, exp_0; lra].
  left. apply ln_increasing; [lra|]. apply exp_ineq1. lra.
Qed.
Theorem exponential_ramp_decay a x : 0 < a ->
  exists y, exponential_ramp earith etransc (Fin (ln 2)) (Fin x) (Fin a) = Fin y /\
    y - Rmax x 0 <= a * Rpower 2 (- (Rabs x / a)) / ln 2.
Proof.
  intros H. destruct (exponential_ramp_shape a H) as (f & Hf & [_ _ _ An _] & Fv).
  exists (f x). split; [apply Hf|]. pose proof ln2_pos.
  assert (G : forall t, f t <= a * Rpower 2 (t / a) / ln 2).
  { intros t. rewrite Fv. unfold Rdiv. rewrite Rmult_assoc. apply Rmult_le_compat_l; [lra|].
    apply Rmult_le_compat_r; [left; apply Rinv_0_lt_compat; lra|]. apply ln_1p_le. left. apply Rpower2_pos. }
  unfold Rmax, Rabs. destruct (Rle_dec x 0) as [L|L].
  - replace (- ((if Rcase_abs x then - x else x) / a)) with (x / a).
    + specialize (G x). lra.
    + destruct (Rcase_abs x); [field; lra|]. replace x with 0 by lra. field. lra.
  - destruct (Rcase_abs x); [lra|]. specialize (An x). specialize (G (- x)).
    replace (- (x / a)) with (- x / a) by (field; lra). lra.
Qed.

Theorem hyperbolic_ramp_decay a x : 0 < a -> x <> 0 ->
  exists y, hyperbolic_ramp earith (Fin x) (Fin a) = Fin y /\ y - Rmax x 0 <= a ^ 2 / Rabs x.
Proof.
  intros H N. destruct (hyperbolic_ramp_shape a H) as (f & Hf & [Ab _ _ An _] & Pr & _).
  exists (f x). split; [apply Hf|].
  assert (Hx : 0 < Rabs x) by (apply Rabs_pos_lt; exact N).
  assert (G : forall u, 0 < u -> f (- u) <= a ^ 2 / u).
  { intros u Hu. pose proof (Ab u) as A1. rewrite Rmax_left in A1 by lra. pose proof (Ab (- u)) as A2.
    rewrite Rmax_right in A2 by lra. specialize (Pr u).
    apply Rmult_le_reg_r with u; [exact Hu|]. unfold Rdiv. rewrite Rmult_assoc, Rinv_l by lra. nra. }
  unfold Rmax, Rabs in *. destruct (Rle_dec x 0) as [L|L]; destruct (Rcase_abs x); try lra.
  - specialize (G (- x) Hx). rewrite Ropp_involutive in G. lra.
  - specialize (G x Hx). specialize (An x). lra.
Qed.

(** a = 0 and a < 0 *)
Theorem ramps_zero x :
  hyperbolic_ramp earith (Fin x) (Fin 0) = Fin (Rmax x 0) /\
  exponential_ramp earith etransc (Fin (ln 2)) (Fin x) (Fin 0) = Fin (Rmax x 0).
Proof.
  unfold hyperbolic_ramp, exponential_ramp. esimp2. rewrite (proj2 (eqb_Fin _ _)) by reflexivity.
  destruct (ltb ecmp (Fin x) (Fin 0)) eqn:E.
  - apply ltb_Fin in E. rewrite Rmax_right by lra. auto.
  - apply ltb_Fin_false in E. rewrite Rmax_left by lra. auto.
Qed.
Theorem ramps_neg x a : a < 0 ->
  hyperbolic_ramp earith x (Fin a) = ENaN /\ exponential_ramp earith etransc (Fin (ln 2)) x (Fin a) = ENaN.
Proof.
  intros H. unfold hyperbolic_ramp, exponential_ramp. esimp2. rewrite (proj2 (eqb_Fin_false _ _)) by lra.
  rewrite (proj2 (ltb_Fin _ _)) by lra. auto.
Qed.
Ltac rcs :=
  repeat (cbn; unfold scale_inf; rewrite ?Rplus_0_r, ?Rplus_0_l, ?sqrt_1, ?ln_1;
          match goal with
          | |- context [Rcompare ?a ?b] =>
              first [rewrite (Rcompare_Gt a b) by lra | rewrite (Rcompare_Lt a b) by lra
                    | rewrite (Rcompare_Eq a b) by lra]
          end); cbn.

(** limits at the infinities *)
Theorem ramps_inf a : 0 < a ->
  hyperbolic_ramp earith PInf (Fin a) = PInf /\ hyperbolic_ramp earith NInf (Fin a) = Fin 0 /\
  exponential_ramp earith etransc (Fin (ln 2)) PInf (Fin a) = PInf /\
  exponential_ramp earith etransc (Fin (ln 2)) NInf (Fin a) = Fin 0.
Proof.
  intros H. unfold hyperbolic_ramp, exponential_ramp. esimp2. rewrite (proj2 (eqb_Fin_false _ _)) by lra.
  rewrite (proj2 (ltb_Fin_false _ _)) by lra.
  cbn [ediv]. rewrite (Rcompare_Gt a 0) by lra.
  pose proof ln2_pos. unfold std_hyperbolic_ramp, std_exponential_ramp.
  repeat split; rcs; first [reflexivity | f_equal; unfold Rdiv; ring].
Qed.

(** ** semivariograms *)
Section Semivar.
  Context (nugget sill range : R) (Hr : 0 < range) (Hs : nugget <= sill).

  Definition vexp (h : R) : R := nugget + (sill - nugget) * (1 - exp (- 3 * h / range)).

  Theorem semivar_exponential_shape :
    exists f, computes (fun h => semivar_exponential earith etransc h (Fin nugget) (Fin sill) (Fin range)) f /\
      variogram f nugget sill /\ (nugget < sill -> forall h, f h < sill) /\
      (forall h, sill - f h = (sill - nugget) * exp (- 3 * (h / range))).
  Proof.
    exists vexp. unfold vexp. split; [|split; [split|split]].
    - intros h. unfold semivar_exponential. esimp2. rewrite ediv_Fin by lra. reflexivity.
    - replace (- 3 * 0 / range) with 0 by (field; lra). rewrite exp_0. ring.
    - intros h k H0 H. assert (exp (- 3 * k / range) <= exp (- 3 * h / range)); [|nra].
      assert (G : - 3 * k / range <= - 3 * h / range).
      { unfold Rdiv. apply Rmult_le_compat_r; [left; apply Rinv_0_lt_compat; lra|lra]. }
      destruct G as [G|G]; [left; apply exp_increasing; exact G|rewrite G; lra].
    - intros h H0. pose proof (exp_pos (- 3 * h / range)). nra.
    - intros h H0. apply derivable_continuous_pt. auto_derive. lra.
    - intros H h. pose proof (exp_pos (- 3 * h / range)). nra.
    - intros h. replace (- 3 * (h / range)) with (- 3 * h / range) by (field; lra). ring.
  Qed.

  (** models with a polynomial profile p up to the range *)
  Section Poly.
    Context (p : R -> R) (p0 : p 0 = 0) (p1e : p 1 = 1).
    Context (pm : forall u v, 0 <= u -> u <= v -> v <= 1 -> p u <= p v).
    Context (pc : continuity p).
    Definition vp (h : R) : R := if Rlt_dec range h then sill else nugget + (sill - nugget) * p (h / range).

    Let hr h : 0 <= h <= range -> 0 <= h / range <= 1.
    Proof.
      intros H. split; (apply Rmult_le_reg_r with range; [lra|]); unfold Rdiv; rewrite Rmult_assoc, Rinv_l by lra; lra.
    Qed.
    Lemma vp_shape : variogram vp nugget sill /\ (forall h, range <= h -> vp h = sill).
    Proof.
      assert (B : forall u, 0 <= u <= 1 -> p u <= 1) by (intros u Hu; rewrite <- p1e; apply pm; lra).
      assert (Q : forall h, range <= h -> vp h = sill).
      { intros h H. unfold vp. destruct (Rlt_dec range h); [reflexivity|]. replace (h / range) with 1.
        - rewrite p1e. ring.
        - replace h with range by lra. field. lra. }
      split; [split|exact Q].
      - unfold vp. destruct (Rlt_dec range 0); [lra|]. replace (0 / range) with 0 by (field; lra). rewrite p0. ring.
      - intros h k H0 H. destruct (Rle_or_lt range k) as [L|L].
        + rewrite (Q k L). unfold vp. destruct (Rlt_dec range h); [lra|]. specialize (B (h / range) (hr h ltac:(lra))). nra.
        + unfold vp. destruct (Rlt_dec range h); [lra|]. destruct (Rlt_dec range k); [lra|].
          pose proof (hr h ltac:(lra)). pose proof (hr k ltac:(lra)).
          assert (p (h / range) <= p (k / range)).
          { apply pm; try lra. unfold Rdiv. apply Rmult_le_compat_r; [left; apply Rinv_0_lt_compat; lra|lra]. }
          nra.
      - intros h H0. unfold vp. destruct (Rlt_dec range h); [lra|]. specialize (B (h / range) (hr h ltac:(lra))). nra.
      - intros h H0.
        apply continuity_pt_ext with (fun h => nugget + (sill - nugget) * p (Rmin (h / range) 1)).
        { intros t. unfold vp. destruct (Rlt_dec range t) as [L|L].
          - rewrite Rmin_right. + rewrite p1e. ring.
            + apply Rmult_le_reg_r with range; [lra|]. unfold Rdiv. rewrite Rmult_assoc, Rinv_l by lra. lra.
          - rewrite Rmin_left; [reflexivity|].
            apply Rmult_le_reg_r with range; [lra|]. unfold Rdiv. rewrite Rmult_assoc, Rinv_l by lra. lra. }
        apply (continuity_pt_plus (fct_cte nugget)); [apply continuity_pt_const; intros ? ?; reflexivity|].
        apply (continuity_pt_mult (fct_cte (sill - nugget))); [apply continuity_pt_const; intros ? ?; reflexivity|].
        apply (continuity_pt_comp (fun h => Rmin (h / range) 1) p); [|apply pc].
        apply (continuity_pt_comp (fun h => h / range) (fun u => Rmin u 1)).
        + apply derivable_continuous_pt. auto_derive. lra.
        + apply (lipschitz_cont (fun u => Rmin u 1) 1); [lra|]. intros u v. unfold Rmin.
          destruct (Rle_dec u 1), (Rle_dec v 1); unfold Rabs; repeat destruct Rcase_abs; lra.
    Qed.
  End Poly.

  Lemma vp_comp (F : ER -> ER -> ER -> ER -> ER) p :
    (forall h, range < h -> F (Fin h) (Fin nugget) (Fin sill) (Fin range) = Fin sill) ->
    (forall h, h <= range -> F (Fin h) (Fin nugget) (Fin sill) (Fin range) = Fin (nugget + (sill - nugget) * p (h / range))) ->
    computes (fun h => F h (Fin nugget) (Fin sill) (Fin range)) (vp p).
  Proof.
    intros H1 H2 h. unfold vp. destruct (Rlt_dec range h); [apply H1; assumption|apply H2; lra].
  Qed.

  Theorem semivar_linear_shape :
    exists f, computes (fun h => semivar_linear earith h (Fin nugget) (Fin sill) (Fin range)) f /\
      variogram f nugget sill /\ (forall h, range <= h -> f h = sill) /\
      (forall h, 0 <= h <= range -> f h = nugget + (sill - nugget) * (h / range)).
  Proof.
    exists (vp (fun u => u)).
    destruct (vp_shape (fun u => u)) as [V Q]; try reflexivity; [intros; lra|poly_cont|].
    split; [|split; [exact V|split; [exact Q|]]].
    - apply vp_comp; intros h H; unfold semivar_linear; esimp2.
      + rewrite (proj2 (gtb_Fin _ _)) by lra. reflexivity.
      + rewrite (proj2 (gtb_Fin_false _ _)) by lra. rewrite ediv_Fin by lra. esimp2. f_equal. field. lra.
    - intros h H. unfold vp. destruct (Rlt_dec range h); [lra|reflexivity].
  Qed.

  Theorem semivar_spherical_shape :
    exists f, computes (fun h => semivar_spherical earith h (Fin nugget) (Fin sill) (Fin range)) f /\
      variogram f nugget sill /\ (forall h, range <= h -> f h = sill) /\
      (forall h, 0 <= h <= range -> f h = nugget + (sill - nugget) * (3 * (h / range) / 2 - (h / range) ^ 3 / 2)).
  Proof.
    exists (vp (fun u => u / 2 * (3 - u * u))).
    destruct (vp_shape (fun u => u / 2 * (3 - u * u))) as [V Q]; [field|field| |poly_cont|].
    { intros u v H1 H2 H3.
      assert (E : v / 2 * (3 - v * v) - u / 2 * (3 - u * u) = (v - u) * (3 - (u * u + u * v + v * v)) / 2) by field.
      assert (0 <= 3 - (u * u + u * v + v * v)) by nra. nra. }
    split; [|split; [exact V|split; [exact Q|]]].
    - apply vp_comp; intros h H; unfold semivar_spherical; esimp2.
      + rewrite (proj2 (gtb_Fin _ _)) by lra. reflexivity.
      + rewrite (proj2 (gtb_Fin_false _ _)) by lra. rewrite ediv_Fin by lra. esimp2. rewrite ediv_Fin by lra. esimp2. f_equal. field. lra.
    - intros h H. unfold vp. destruct (Rlt_dec range h); [lra|]. field. lra.
  Qed.

  Theorem semivar_parabolic_shape :
    exists f, computes (fun h => semivar_parabolic earith h (Fin nugget) (Fin sill) (Fin range)) f /\
      variogram f nugget sill /\ (forall h, range <= h -> f h = sill) /\
      (forall h, 0 <= h <= range -> f h = nugget + (sill - nugget) * (2 * (h / range) - (h / range) ^ 2)).
  Proof.
    exists (vp (fun u => u * (2 - u))).
    destruct (vp_shape (fun u => u * (2 - u))) as [V Q]; [field|field| |poly_cont|].
    { intros u v H1 H2 H3. nra. }
    split; [|split; [exact V|split; [exact Q|]]].
    - apply vp_comp; intros h H; unfold semivar_parabolic; esimp2.
      + rewrite (proj2 (gtb_Fin _ _)) by lra. reflexivity.
      + rewrite (proj2 (gtb_Fin_false _ _)) by lra. rewrite ediv_Fin by lra. esimp2. f_equal. unfold Rminus. field. lra.
    - intros h H. unfold vp. destruct (Rlt_dec range h); [lra|]. field. lra.
  Qed.
End Semivar.

(** ** logistic family *)
Definition lgst (x : R) : R := / (1 + exp (- x)).
Lemma lg_den x : 1 < 1 + exp x. Proof. pose proof (exp_pos x). lra. Qed.

Lemma logistic_val x : logistic earith etransc (Fin x) = Fin (lgst x).
Proof.
  unfold logistic. esimp2. pose proof (lg_den (- x)). rewrite ediv_Fin by lra. f_equal. unfold lgst. field. lra.
Qed.

Lemma lgst_opp x : lgst (- x) = 1 - lgst x.
Proof.
  unfold lgst. rewrite Ropp_involutive. pose proof (exp_pos x). pose proof (exp_pos (- x)).
  assert (exp x * exp (- x) = 1) by (rewrite <- exp_plus; replace (x + - x) with 0 by ring; apply exp_0).
  field_simplify_eq; [|split; lra]. nra.
Qed.
Lemma lgst_range x : 0 < lgst x < 1.
Proof.
  unfold lgst. pose proof (lg_den (- x)). split; [apply Rinv_0_lt_compat; lra|].
  rewrite <- Rinv_1. apply Rinv_lt_contravar; lra.
Qed.

Theorem logistic_shape :
  exists f, computes (logistic earith etransc) f /\ (forall x, f x = 1 / (1 + exp (- x))) /\
    (forall x, 0 < f x < 1) /\ strictly_increasing f /\ (forall x, f (- x) = 1 - f x) /\ f 0 = / 2 /\
    computes (logistic_deriv earith etransc) (fun x => f x * (1 - f x)) /\
    (forall x, derivable_pt_lim f x (f x * (1 - f x))) /\
    computes (log_logistic earith etransc) (fun x => ln (f x)) /\
    (forall x beta, swish earith etransc (Fin x) (Fin beta) = Fin (x * f (beta * x))).
Proof.
  exists lgst. split; [intros x; apply logistic_val|]. split; [|split; [|split; [|split; [|split; [|split; [|split; [|split]]]]]]].
  - intros x. unfold lgst. field. pose proof (lg_den (- x)). lra.
  - apply lgst_range.
  - intros x y H. unfold lgst. pose proof (lg_den (- x)). pose proof (lg_den (- y)).
    apply Rinv_lt_contravar; [nra|]. apply Rplus_lt_compat_l, exp_increasing. lra.
  - apply lgst_opp.
  - unfold lgst. rewrite Ropp_0, exp_0. field.
  - intros x. unfold logistic_deriv. esimp2. rewrite !logistic_val. esimp2. rewrite lgst_opp. reflexivity.
  - intros x. apply is_derive_Reals. unfold lgst. pose proof (lg_den (- x)). auto_derive; [lra|]. field. lra.
  - intros x. unfold log_logistic. esimp2. pose proof (exp_pos x). pose proof (exp_pos (- x)).
    rewrite !elog1p_Fin by lra. unfold lgst. rewrite ln_Rinv by lra.
    destruct (ltb ecmp (Fin x) (Fin 0)); esimp2; f_equal.
    assert (E : 1 + exp x = exp x * (1 + exp (- x))).
    { rewrite Rmult_plus_distr_l, <- exp_plus. replace (x + - x) with 0 by ring. rewrite exp_0. ring. }
    rewrite E, ln_mult by lra. rewrite ln_exp. ring.
  - intros x beta. unfold swish. esimp2. rewrite logistic_val. reflexivity.
Qed.

Theorem logistic_inf :
  logistic earith etransc PInf = Fin 1 /\ logistic earith etransc NInf = Fin 0 /\
  logistic_deriv earith etransc PInf = Fin 0 /\ logistic_deriv earith etransc NInf = Fin 0 /\
  log_logistic earith etransc PInf = Fin 0 /\ log_logistic earith etransc NInf = NInf.
Proof.
  assert (P : logistic earith etransc PInf = Fin 1).
  { unfold logistic. esimp2. rewrite Rplus_0_r. rewrite ediv_Fin by lra. f_equal. field. }
  assert (Q : logistic earith etransc NInf = Fin 0) by reflexivity.
  split; [exact P|]. split; [exact Q|]. unfold logistic_deriv. esimp2. rewrite P, Q. esimp2.
  split; [f_equal; ring|]. split; [f_equal; ring|].
  unfold log_logistic. split; cbn; rewrite Rcompare_Gt by lra; rewrite Rplus_0_r, ln_1; cbn; [f_equal; ring|reflexivity].
Qed.

(** swish(-inf, 1) = -inf * 0 = NaN although swish(x, 1) tends to 0 as x -> -inf *)
Theorem swish_neginf_refuted : swish earith etransc NInf (Fin 1) = ENaN.
Proof.
  unfold swish. esimp2. unfold scale_inf. rewrite Rcompare_Gt by lra.
  destruct logistic_inf as (_ & Q & _). rewrite Q. esimp2. unfold scale_inf. rewrite Rcompare_Eq by reflexivity. reflexivity.
Qed.
Theorem swish_limit : forall eps, 0 < eps -> exists m, forall x, x < m ->
  exists v, swish earith etransc (Fin x) (Fin 1) = Fin v /\ Rabs v < eps.
Proof.
  intros eps He. exists (Rmin (-1) (- (4 / eps))). intros x Hx.
  pose proof (Rmin_l (-1) (- (4 / eps))). pose proof (Rmin_r (-1) (- (4 / eps))).
  exists (x * lgst (1 * x)). unfold swish. esimp2. rewrite logistic_val. esimp2. split; [reflexivity|].
  rewrite Rmult_1_l. unfold lgst. set (y := - x) in *. replace x with (- y) by (unfold y; ring).
  assert (Hy : 1 < y) by (unfold y; lra). assert (Hy2 : 4 / eps < y) by (unfold y; lra).
  assert (Ex : y * y / 4 < exp y).
  { assert (E2 : exp y = exp (y / 2) * exp (y / 2)) by (rewrite <- exp_plus; f_equal; field).
    pose proof (exp_ineq1 (y / 2) ltac:(lra)). rewrite E2. nra. }
  assert (Hd : 0 < 1 + exp y) by (pose proof (exp_pos y); lra).
  rewrite Rabs_mult, Rabs_Ropp, (Rabs_pos_eq y) by lra.
  rewrite Rabs_pos_eq by (left; apply Rinv_0_lt_compat; exact Hd).
  apply Rmult_lt_reg_r with (1 + exp y); [exact Hd|]. rewrite Rmult_assoc, Rinv_l by lra.
  assert (4 < eps * y).
  { apply Rmult_lt_reg_r with (/ eps); [apply Rinv_0_lt_compat; lra|].
    replace (eps * y * / eps) with y by (field; lra). exact Hy2. }
  assert (y < eps * (y * y / 4)) by nra. nra.
Qed.

(** ** normal: any erfc with the reflection law *)

Section Normal.
  Context (erfc erfcx : R -> R) (H : erfc_laws erfc erfcx).
  Definition rs2 : R := / sqrt 2.
  Definition phi (x : R) : R := erfc (- (x * rs2)) / 2.
  Notation E := (lift1 erfc).
  Notation EX := (lift1 erfcx).
  Notation s := (Fin (/ sqrt 2)).

  Lemma cdf_val x : normal_cdf earith s E (Fin x) = Fin (phi x).
  Proof.
    unfold normal_cdf. esimp2. rewrite isnanb_Fin. fold rs2. cbn [lift1].
    rewrite !ediv_Fin by lra. destruct (gtb ecmp (Fin (x * rs2)) (Fin 0)); [|reflexivity].
    esimp2. f_equal. unfold phi. rewrite (erfc_refl _ _ H). field.
  Qed.
  Lemma phi_range x : 0 < phi x < 1.
  Proof.
    unfold phi. pose proof (erfc_pos _ _ H (- (x * rs2))). pose proof (erfc_pos _ _ H (x * rs2)).
    rewrite (erfc_refl _ _ H) in *. lra.
  Qed.
  Lemma phi_opp x : phi (- x) = 1 - phi x.
  Proof.
    unfold phi. replace (- (- x * rs2)) with (x * rs2) by ring. rewrite (erfc_refl _ _ H). field.
  Qed.

  Lemma logcdf_val x : normal_logcdf earith etransc s E EX (Fin x) = Fin (ln (phi x)).
  Proof.
    unfold normal_logcdf. esimp2. fold rs2. cbn [lift1]. esimp2. rewrite !ediv_Fin by lra.
    pose proof (phi_range x) as P. pose proof (phi_range (- x)) as P'.
    set (t := x * rs2). unfold phi in *. fold t in P |- *.
    replace (- (- x * rs2)) with t in P' by (unfold t; ring).
    destruct (ltb ecmp (Fin x) (Fin (-1))) eqn:E1.
    - rewrite (erfcx_def _ _ H). pose proof (exp_pos (- t * - t)).
      rewrite elog_pos by (apply Rmult_lt_reg_r with 2; [lra|]; unfold Rdiv; rewrite Rmult_assoc, Rinv_l by lra; nra).
      esimp2. f_equal.
      replace (exp (- t * - t) * erfc (- t) / 2) with (exp (t * t) * (erfc (- t) / 2)) by (replace (- t * - t) with (t * t) by ring; field).
      rewrite ln_mult by (try apply exp_pos; lra). rewrite ln_exp. ring.
    - replace (- erfc t / 2) with (- (erfc t / 2)) by field. rewrite elog1p_Fin by lra. f_equal. f_equal.
      rewrite (erfc_refl _ _ H). field.
  Qed.

  Theorem normal_consistent :
    exists f, computes (normal_cdf earith s E) f /\ (forall x, f x = erfc (- (x / sqrt 2)) / 2) /\
      (forall x, 0 < f x < 1) /\ f 0 = / 2 /\
      computes (normal_sf earith s E) (fun x => 1 - f x) /\ (forall x, f (- x) = 1 - f x) /\
      computes (normal_logcdf earith etransc s E EX) (fun x => ln (f x)) /\
      computes (normal_logsf earith etransc s E EX) (fun x => ln (1 - f x)) /\
      ((forall a b, a < b -> erfc b < erfc a) -> strictly_increasing f).
  Proof.
    exists phi. split; [exact cdf_val|]. split; [reflexivity|]. split; [exact phi_range|].
    split; [pose proof (phi_opp 0) as Z; rewrite Ropp_0 in Z; lra|].
    split; [intros x; unfold normal_sf; esimp2; rewrite cdf_val, phi_opp; reflexivity|].
    split; [exact phi_opp|]. split; [exact logcdf_val|].
    split; [intros x; unfold normal_logsf; esimp2; rewrite logcdf_val, phi_opp; reflexivity|].
    intros Hd x y Hxy. unfold phi.
    assert (0 < rs2) by (apply Rinv_0_lt_compat, sqrt_lt_R0; lra).
    assert (erfc (- (x * rs2)) < erfc (- (y * rs2))) by (apply Hd; nra). lra.
  Qed.
End Normal.

(** a function satisfying the laws (2 / (1 + exp(2x))), so they are consistent *)
Lemma erfc_laws_inhabited : erfc_laws (fun x => 2 * lgst (- (2 * x))) (fun x => exp (x * x) * (2 * lgst (- (2 * x)))).
Proof.
  split.
  - intros x. rewrite lgst_opp. replace (2 * - x) with (- (2 * x)) by ring. ring.
  - intros x. pose proof (lgst_range (- (2 * x))). lra.
  - reflexivity.
Qed.

(** ** pow1pm1 *)
Theorem pow1pm1_exact x y : -1 < x -> pow1pm1 earith etransc (Fin x) (Fin y) = Fin (Rpower (1 + x) y - 1).
Proof.
  intros H. unfold pow1pm1. esimp2. rewrite (proj2 (eqb_Fin_false x _)) by lra. cbn [andb].
  rewrite elog1p_Fin by lra. reflexivity.
Qed.
Theorem pow1pm1_limits y :
  pow1pm1 earith etransc (Fin (-1)) (Fin y) =
    (if Rlt_dec y 0 then PInf else if Rlt_dec 0 y then Fin (-1) else Fin 0) /\
  (forall x, x < -1 -> pow1pm1 earith etransc (Fin x) (Fin y) = ENaN).
Proof.
  unfold pow1pm1. esimp2. split.
  - rewrite (proj2 (eqb_Fin (-1) _)) by reflexivity. cbn [andb].
    destruct (eqb ecmp (Fin y) (Fin 0)) eqn:E.
    + apply eqb_Fin in E. destruct (Rlt_dec y 0), (Rlt_dec 0 y); try lra. reflexivity.
    + apply eqb_Fin_false in E. cbn [elog1p]. rewrite Rcompare_Eq by reflexivity. cbn [emul]. unfold scale_inf.
      destruct (Rcompare_spec y 0); destruct (Rlt_dec y 0), (Rlt_dec 0 y); try lra; try reflexivity.
  - intros x H. rewrite (proj2 (eqb_Fin_false x _)) by lra. cbn [andb elog1p]. rewrite Rcompare_Lt by lra. reflexivity.
Qed.
(** (1 + inf)^0 - 1 = 0 by the C99 convention pow(inf, 0) = 1, but the code returns NaN *)
Theorem pow1pm1_inf_zero_refuted :
  pow1pm1 earith etransc PInf (Fin 0) = ENaN /\ epow PInf (Fin 0) = Fin 1.
Proof.
  split.
  - unfold pow1pm1. cbn. unfold scale_inf. rewrite Rcompare_Eq by reflexivity. reflexivity.
  - cbn. rewrite Rcompare_Eq by reflexivity. reflexivity.
Qed.

(** ** yeo_johnson *)
(** Box-Cox transform of 1 + u, u >= 0 *)
Definition bc (l u : R) : R := if Req_EM_T l 0 then ln (1 + u) else (Rpower (1 + u) l - 1) / l.
Definition yj (x l : R) : R := if Rle_dec 0 x then bc l x else - bc (2 - l) (- x).

Lemma yj_val x l : yeo_johnson earith etransc (Fin x) (Fin l) = Fin (yj x l).
Proof.
  unfold yeo_johnson, yj, bc. esimp2.
  destruct (geb ecmp (Fin x) (Fin 0)) eqn:E.
  - apply geb_Fin in E. destruct (Rle_dec 0 x); [|lra]. rewrite elog1p_Fin by lra.
    destruct (eqb ecmp (Fin l) (Fin 0)) eqn:E0.
    + apply eqb_Fin in E0. destruct (Req_EM_T l 0); [reflexivity|lra].
    + apply eqb_Fin_false in E0. destruct (Req_EM_T l 0); [lra|]. esimp2. rewrite ediv_Fin by lra. reflexivity.
  - apply geb_Fin_false in E. destruct (Rle_dec 0 x); [lra|]. rewrite elog1p_Fin by lra.
    destruct (eqb ecmp (Fin l) (Fin 2)) eqn:E0.
    + apply eqb_Fin in E0. destruct (Req_EM_T (2 - l) 0); [reflexivity|lra].
    + apply eqb_Fin_false in E0. destruct (Req_EM_T (2 - l) 0); [lra|]. esimp2. rewrite ediv_Fin by lra.
      f_equal. unfold Rpower. change (2 + - l) with (2 - l). field. lra.
Qed.

Lemma bc_mono l u v : 0 <= u -> u < v -> bc l u < bc l v.
Proof.
  intros H0 H. unfold bc. assert (L : ln (1 + u) < ln (1 + v)) by (apply ln_increasing; lra).
  destruct (Req_EM_T l 0); [exact L|]. unfold Rpower.
  destruct (Rtotal_order l 0) as [G|[G|G]]; [|lra|].
  - assert (exp (l * ln (1 + v)) < exp (l * ln (1 + u))) by (apply exp_increasing; nra).
    unfold Rdiv. assert (/ l < 0) by (apply Rinv_lt_0_compat; exact G). nra.
  - assert (exp (l * ln (1 + u)) < exp (l * ln (1 + v))) by (apply exp_increasing; nra).
    apply Rmult_lt_compat_r; [apply Rinv_0_lt_compat; exact G|lra].
Qed.
Lemma bc_0 l : bc l 0 = 0.
Proof.
  unfold bc. rewrite Rplus_0_r, ln_1. destruct (Req_EM_T l 0); [reflexivity|]. unfold Rpower.
  rewrite ln_1, Rmult_0_r, exp_0. field. assumption.
Qed.
Lemma bc_nonneg l u : 0 <= u -> 0 <= bc l u.
Proof. intros [H|H]; [rewrite <- (bc_0 l); left; apply bc_mono; lra|subst u; rewrite bc_0; lra]. Qed.

(** inverse of the Box-Cox transform on its range *)
Definition ibc (l y : R) : R := if Req_EM_T l 0 then exp y - 1 else Rpower (1 + l * y) (/ l) - 1.
Lemma bc_arg l u : l <> 0 -> 0 <= u -> 1 + l * bc l u = Rpower (1 + u) l.
Proof. intros N H. unfold bc. destruct (Req_EM_T l 0); [contradiction|]. field. exact N. Qed.
Lemma ibc_bc l u : 0 <= u -> ibc l (bc l u) = u.
Proof.
  intros H. unfold ibc. destruct (Req_EM_T l 0) as [E|N].
  - unfold bc. destruct (Req_EM_T l 0); [|contradiction]. rewrite exp_ln by lra. ring.
  - rewrite bc_arg by assumption. rewrite Rpower_mult, Rinv_r by exact N. rewrite Rpower_1 by lra. ring.
Qed.
Lemma ibc_nonneg l y : 0 <= y -> 0 < 1 + l * y -> 0 <= ibc l y.
Proof.
  intros H Hp. unfold ibc. destruct (Req_EM_T l 0) as [E|N].
  - assert (1 <= exp y); [|lra]. rewrite <- exp_0. destruct H as [H|H]; [left; apply exp_increasing; exact H|subst; lra].
  - assert (1 <= Rpower (1 + l * y) (/ l)); [|lra]. unfold Rpower. apply Rle_trans with (exp 0); [rewrite exp_0; lra|].
    assert (G : 0 <= / l * ln (1 + l * y)).
    { destruct (Rtotal_order l 0) as [G|[G|G]]; [|lra|].
      - assert (/ l < 0) by (apply Rinv_lt_0_compat; exact G).
        assert (ln (1 + l * y) <= 0) by (rewrite <- ln_1; destruct H as [H|H]; [left; apply ln_increasing; nra|subst y; rewrite Rmult_0_r, Rplus_0_r; lra]).
        nra.
      - assert (0 < / l) by (apply Rinv_0_lt_compat; exact G).
        assert (0 <= ln (1 + l * y)) by (rewrite <- ln_1; destruct H as [H|H]; [left; apply ln_increasing; nra|subst y; rewrite Rmult_0_r, Rplus_0_r; lra]).
        nra. }
    destruct G as [G|G]; [left; apply exp_increasing; exact G|rewrite <- G; lra].
Qed.
Lemma bc_ibc l y : 0 < 1 + l * y -> bc l (ibc l y) = y.
Proof.
  intros Hp. unfold bc, ibc. destruct (Req_EM_T l 0) as [E|N].
  - replace (1 + (exp y - 1)) with (exp y) by ring. apply ln_exp.
  - replace (1 + (Rpower (1 + l * y) (/ l) - 1)) with (Rpower (1 + l * y) (/ l)) by ring.
    rewrite Rpower_mult, Rinv_l by exact N. rewrite Rpower_1 by exact Hp. field. exact N.
Qed.

(** value of the inverse: the range of yj(., l) is {y >= 0 : 1 + l y > 0} and
    {y < 0 : 1 - (2 - l) y > 0} *)
Definition iyj (y l : R) : R := if Rle_dec 0 y then ibc l y else - ibc (2 - l) (- y).

Lemma iyj_val y l : yj_range y l -> inv_yeo_johnson earith etransc (Fin y) (Fin l) = Fin (iyj y l).
Proof.
  intros [R1 R2]. unfold inv_yeo_johnson, iyj, ibc. esimp2.
  destruct (geb ecmp (Fin y) (Fin 0)) eqn:E.
  - apply geb_Fin in E. specialize (R1 ltac:(lra)). destruct (Rle_dec 0 y); [|lra].
    destruct (eqb ecmp (Fin l) (Fin 0)) eqn:E0.
    + apply eqb_Fin in E0. destruct (Req_EM_T l 0); [reflexivity|lra].
    + apply eqb_Fin_false in E0. destruct (Req_EM_T l 0); [lra|]. rewrite ediv_Fin by exact E0.
      destruct (ltb ecmp (Fin l) (Fin 0)) eqn:E1.
      * apply ltb_Fin in E1. rewrite (proj2 (geb_Fin_false _ _)).
        2:{ apply Ropp_lt_cancel. apply Rmult_lt_reg_r with (- l); [lra|].
            replace (- (-1 / l) * - l) with (-1) by (field; lra). lra. }
        cbn [andb]. rewrite elog1p_Fin by lra. rewrite ediv_Fin by exact E0. cbn [eexpm1]. f_equal.
        unfold Rpower. f_equal. f_equal. field. lra.
      * cbn [andb]. rewrite elog1p_Fin by lra. rewrite ediv_Fin by exact E0. cbn [eexpm1]. f_equal.
        unfold Rpower. f_equal. f_equal. field. lra.
  - apply geb_Fin_false in E. specialize (R2 ltac:(lra)). destruct (Rle_dec 0 y); [lra|].
    destruct (eqb ecmp (Fin l) (Fin 2)) eqn:E0.
    + apply eqb_Fin in E0. destruct (Req_EM_T (2 - l) 0); [reflexivity|lra].
    + apply eqb_Fin_false in E0. destruct (Req_EM_T (2 - l) 0); [lra|]. change (2 + - l) with (2 - l).
      rewrite ediv_Fin by lra.
      destruct (gtb ecmp (Fin l) (Fin 2)) eqn:E1.
      * apply gtb_Fin in E1. rewrite (proj2 (leb_Fin_false _ _)).
        2:{ apply Ropp_lt_cancel. apply Rmult_lt_reg_r with (l - 2); [lra|].
            replace (- (1 / (2 - l)) * (l - 2)) with 1 by (field; lra). lra. }
        cbn [andb]. rewrite elog1p_Fin by lra. rewrite ediv_Fin by lra. cbn [eexpm1 eopp]. f_equal. f_equal.
        unfold Rpower. f_equal. f_equal. replace (- (2 - l) * y) with ((2 - l) * - y) by ring. field. lra.
      * cbn [andb]. rewrite elog1p_Fin by lra. rewrite ediv_Fin by lra. cbn [eexpm1 eopp]. f_equal. f_equal.
        unfold Rpower. f_equal. f_equal. replace (- (2 - l) * y) with ((2 - l) * - y) by ring. field. lra.
Qed.

Lemma yj_in_range x l : yj_range (yj x l) l.
Proof.
  unfold yj_range, yj. destruct (Rle_dec 0 x) as [L|L]; split; intros H.
  - destruct (Req_dec l 0) as [->|N]; [lra|]. rewrite bc_arg by assumption. apply exp_pos.
  - pose proof (bc_nonneg l x L). lra.
  - pose proof (bc_mono (2 - l) 0 (- x) ltac:(lra) ltac:(lra)). rewrite bc_0 in *. lra.
  - replace (1 - (2 - l) * - bc (2 - l) (- x)) with (1 + (2 - l) * bc (2 - l) (- x)) by ring.
    destruct (Req_dec (2 - l) 0) as [E|N]; [rewrite E; lra|]. rewrite bc_arg by lra. apply exp_pos.
Qed.

Lemma yj_sign x l : (0 <= x -> 0 <= yj x l) /\ (x < 0 -> yj x l < 0).
Proof.
  unfold yj. split; intros H; destruct (Rle_dec 0 x); try lra; [apply bc_nonneg; exact H|].
  pose proof (bc_mono (2 - l) 0 (- x) ltac:(lra) ltac:(lra)). rewrite bc_0 in *. lra.
Qed.

Theorem inv_yj_left x l : exists y,
  yeo_johnson earith etransc (Fin x) (Fin l) = Fin y /\ inv_yeo_johnson earith etransc (Fin y) (Fin l) = Fin x.
Proof.
  exists (yj x l). split; [apply yj_val|]. rewrite iyj_val by apply yj_in_range. f_equal.
  destruct (yj_sign x l) as [S1 S2]. unfold iyj. destruct (Rle_dec 0 x) as [L|L].
  - destruct (Rle_dec 0 (yj x l)); [|specialize (S1 L); lra]. unfold yj. destruct (Rle_dec 0 x); [|lra]. apply ibc_bc, L.
  - assert (Lx : x < 0) by lra. specialize (S2 Lx). destruct (Rle_dec 0 (yj x l)); [lra|].
    unfold yj. destruct (Rle_dec 0 x); [lra|]. rewrite Ropp_involutive, ibc_bc by lra. ring.
Qed.

Theorem inv_yj_right y l : yj_range y l -> exists x,
  inv_yeo_johnson earith etransc (Fin y) (Fin l) = Fin x /\ yeo_johnson earith etransc (Fin x) (Fin l) = Fin y.
Proof.
  intros R. exists (iyj y l). split; [apply iyj_val, R|]. rewrite yj_val. f_equal. destruct R as [R1 R2].
  unfold iyj. destruct (Rle_dec 0 y) as [L|L].
  - specialize (R1 L). pose proof (ibc_nonneg l y L R1). unfold yj. destruct (Rle_dec 0 (ibc l y)); [|lra]. apply bc_ibc, R1.
  - specialize (R2 ltac:(lra)). assert (P : 0 < 1 + (2 - l) * - y) by lra.
    assert (N0 : 0 <= ibc (2 - l) (- y)) by (apply ibc_nonneg; lra).
    assert (N1 : ibc (2 - l) (- y) <> 0).
    { intros E. pose proof (bc_ibc (2 - l) (- y) P) as Q. rewrite E, bc_0 in Q. lra. }
    unfold yj. destruct (Rle_dec 0 (- ibc (2 - l) (- y))); [lra|]. rewrite Ropp_involutive, bc_ibc by exact P. ring.
Qed.

Theorem yj_increasing l : exists f, computes (fun x => yeo_johnson earith etransc x (Fin l)) f /\ strictly_increasing f /\ f 0 = 0.
Proof.
  exists (fun x => yj x l). split; [intros x; apply yj_val|]. split.
  - intros x y H. destruct (yj_sign x l) as [S1 S2]. destruct (yj_sign y l) as [T1 T2].
    destruct (Rle_or_lt 0 x) as [L|L].
    + unfold yj. destruct (Rle_dec 0 x); [|lra]. destruct (Rle_dec 0 y); [|lra]. apply bc_mono; lra.
    + destruct (Rle_or_lt 0 y) as [L'|L']; [specialize (S2 L); specialize (T1 L'); lra|].
      unfold yj. destruct (Rle_dec 0 x); [lra|]. destruct (Rle_dec 0 y); [lra|].
      apply Ropp_lt_contravar. apply bc_mono; lra.
  - unfold yj. destruct (Rle_dec 0 0); [|lra]. apply bc_0.
Qed.

(** outside the range: NaN, and the infinite limit exactly at the end of the range *)
Theorem inv_yj_outside y l :
  (l < 0 -> 0 <= y -> 1 + l * y < 0 -> inv_yeo_johnson earith etransc (Fin y) (Fin l) = ENaN) /\
  (l < 0 -> 0 <= y -> 1 + l * y = 0 -> inv_yeo_johnson earith etransc (Fin y) (Fin l) = PInf) /\
  (2 < l -> y < 0 -> 1 - (2 - l) * y < 0 -> inv_yeo_johnson earith etransc (Fin y) (Fin l) = ENaN) /\
  (2 < l -> y < 0 -> 1 - (2 - l) * y = 0 -> inv_yeo_johnson earith etransc (Fin y) (Fin l) = NInf).
Proof.
  unfold inv_yeo_johnson. esimp2. repeat split; intros Hl Hy Hv.
  - rewrite (proj2 (geb_Fin _ _)) by lra. rewrite (proj2 (eqb_Fin_false _ _)) by lra. rewrite (proj2 (ltb_Fin _ _)) by lra.
    rewrite ediv_Fin by lra.
    assert (-1 / l < y). { apply Ropp_lt_cancel. apply Rmult_lt_reg_r with (- l); [lra|]. replace (- (-1 / l) * - l) with (-1) by (field; lra). nra. }
    rewrite (proj2 (geb_Fin _ _)) by lra. cbn [andb]. rewrite (proj2 (gtb_Fin _ _)) by lra. reflexivity.
  - rewrite (proj2 (geb_Fin _ _)) by lra. rewrite (proj2 (eqb_Fin_false _ _)) by lra. rewrite (proj2 (ltb_Fin _ _)) by lra.
    rewrite ediv_Fin by lra.
    assert (-1 / l = y). { apply Rmult_eq_reg_r with l; [|lra]. replace (-1 / l * l) with (-1) by (field; lra). lra. }
    rewrite (proj2 (geb_Fin _ _)) by lra. cbn [andb]. rewrite (proj2 (gtb_Fin_false _ _)) by lra. reflexivity.
  - rewrite (proj2 (geb_Fin_false _ _)) by lra. rewrite (proj2 (eqb_Fin_false _ _)) by lra. rewrite (proj2 (gtb_Fin _ _)) by lra.
    change (2 + - l) with (2 - l). rewrite ediv_Fin by lra.
    assert (y < 1 / (2 - l)). { apply Ropp_lt_cancel. apply Rmult_lt_reg_r with (l - 2); [lra|]. replace (- (1 / (2 - l)) * (l - 2)) with 1 by (field; lra). nra. }
    rewrite (proj2 (leb_Fin _ _)) by lra. cbn [andb]. rewrite (proj2 (ltb_Fin _ _)) by lra. reflexivity.
  - rewrite (proj2 (geb_Fin_false _ _)) by lra. rewrite (proj2 (eqb_Fin_false _ _)) by lra. rewrite (proj2 (gtb_Fin _ _)) by lra.
    change (2 + - l) with (2 - l). rewrite ediv_Fin by lra.
    assert (y = 1 / (2 - l)). { apply Rmult_eq_reg_r with (2 - l); [|lra]. replace (1 / (2 - l) * (2 - l)) with 1 by (field; lra). lra. }
    rewrite (proj2 (leb_Fin _ _)) by lra. cbn [andb]. rewrite (proj2 (ltb_Fin_false _ _)) by lra. reflexivity.
Qed.
