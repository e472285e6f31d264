(** Rounding errors of the logistic family, for library functions accurate to a few units in the last place. *)
From Coq Require Import ZArith Reals List Bool Lia Lra Psatz SpecFloat.
From Flocq Require Import Core BinarySingleNaN Plus_error Relative.
From Verif Require Import CSem CSemP Num NumP NumF M_Elem S_Signal S_Line S_StepF S_LogiF P_Kbn P_SumF P_LineF P_StepF P_RampF.
Open Scope R_scope.

Lemma ln_div x y : 0 < x -> 0 < y -> ln (x / y) = ln x - ln y.
Proof. intros A B. unfold Rdiv. rewrite ln_mult, ln_Rinv; try assumption; [ring|apply Rinv_0_lt_compat; assumption]. Qed.
Lemma ln_le_m1 y : 0 < y -> ln y <= y - 1.
Proof. intros H. pose proof (exp_ineq1_le (ln y)) as E. rewrite exp_ln in E by exact H. lra. Qed.
Lemma ln_diff a b : 0 < a -> 0 < b -> ln a - ln b <= (a - b) / b.
Proof.
  intros A B. rewrite <- ln_div by assumption. pose proof (ln_le_m1 (a / b) ltac:(apply Rdiv_lt_0_compat; assumption)) as E.
  replace ((a - b) / b) with (a / b - 1) by (field; lra). exact E.
Qed.
Lemma ln_lip t T : - / 1000 <= t -> 0 <= T -> Rabs (log1pR t - log1pR T) <= 101/100 * Rabs (t - T).
Proof.
  intros Ht HT. unfold log1pR. set (d := Rabs (t - T)). assert (Pd : 0 <= d) by apply Rabs_pos.
  assert (D1 : Rabs (t - T) <= d) by (unfold d; lra). apply Rabs_le_inv in D1.
  assert (Q : forall a b, 0 < a -> 999/1000 <= b -> a - b <= d -> ln a - ln b <= 101/100 * d).
  { intros a b Ha Hb Hab. eapply Rle_trans; [apply ln_diff; lra|]. apply (Rmult_le_reg_r b); [lra|]. unfold Rdiv. rewrite Rmult_assoc, Rinv_l, Rmult_1_r by lra.
    assert (101/100 * d * (999/1000) <= 101/100 * d * b) by (apply Rmult_le_compat_l; lra). lra. }
  apply Rabs_le. split; [|apply Q; lra]. assert (ln (1 + T) - ln (1 + t) <= 101/100 * d) by (apply Q; lra). lra.
Qed.
Lemma log1p_half T : 0 < T <= 1 -> T <= 2 * log1pR T.
Proof.
  intros H. unfold log1pR. pose proof (ln_diff 1 (1 + T) ltac:(lra) ltac:(lra)) as E. rewrite ln_1 in E.
  assert (B : (1 - (1 + T)) / (1 + T) <= - (T / 2)).
  { apply (Rmult_le_reg_r (1 + T)); [lra|]. unfold Rdiv at 1. rewrite Rmult_assoc, Rinv_l, Rmult_1_r by lra. nra. }
  lra.
Qed.
Lemma ln_sigmoid x : ln (sigmoid x) = - log1pR (exp (- x)).
Proof.
  unfold sigmoid, log1pR. pose proof (exp_pos (- x)). rewrite ln_div by lra. rewrite ln_1. ring.
Qed.
Lemma ln_sigmoid_neg x : ln (sigmoid x) = x - log1pR (exp x).
Proof.
  unfold sigmoid, log1pR. pose proof (exp_pos x). replace (1 / (1 + exp (- x))) with (exp x / (1 + exp x)).
  - rewrite ln_div, ln_exp by lra. reflexivity.
  - rewrite exp_Ropp. field. lra.
Qed.
Lemma sigmoid_01 x : 0 < sigmoid x < 1.
Proof.
  unfold sigmoid. pose proof (exp_pos (- x)). split; [apply Rdiv_lt_0_compat; lra|]. apply (Rmult_lt_reg_r (1 + exp (- x))); [lra|].
  unfold Rdiv. rewrite Rmult_assoc, Rinv_l by lra. lra.
Qed.

Section LogiF.
  Context (prec emax : Z).
  Context (Hp : Prec_gt_0 prec) (He : Prec_lt_emax prec emax).
  Context (Hp11 : (11 <= prec)%Z).
  Notation F := (binary_float prec emax).
  Notation FA := (farith prec emax Hp He).
  Notation u := (u_ro radix2 prec).
  Notation h := (half_eta prec emax).
  Context (TR : transc F) (K : R) (HK : 0 <= K <= 8).
  Notation US := (u_small prec Hp11).
  Notation HS := (h_small prec emax He Hp11).

  Lemma ku_small : 0 <= K * u <= 8 / 2048.
  Proof. pose proof US. split; [apply Rmult_le_pos; lra|]. unfold Rdiv. apply Rmult_le_compat; lra. Qed.

  Lemma logistic_bound (x : F) : libm_close K exp (t_exp TR) (a_opp FA x) ->
    is_finite (a_add FA (a_ofZ FA 1) (t_exp TR (a_opp FA x))) = true ->
    is_finite (logistic FA TR x) = true /\
    Rabs (B2R (logistic FA TR x) - sigmoid (B2R x)) <= (11/10 * K + 3) * u * sigmoid (B2R x) + h.
  Proof.
    intros [_ Ee] Fs. unfold logistic, sigmoid. destruct (one_R prec emax Hp He Hp11) as [F1 R1]. pose proof US as U. pose proof HS as HH. pose proof ku_small as KU.
    pose proof (add_e prec emax Hp He _ _ Fs) as Es. rewrite R1 in Es.
    replace (B2R (a_opp FA x)) with (- B2R x) in Ee by (symmetry; apply B2R_Bopp). pose proof (exp_pos (- B2R x)) as PE.
    set (E := exp (- B2R x)) in *. rewrite (Rabs_pos_eq E) in Ee by lra. set (e := B2R (t_exp TR (a_opp FA x))) in *.
    set (D := 1 + E) in *. assert (HD : 1 <= D) by (unfold D; lra). assert (UD : u <= u * D) by (rewrite <- (Rmult_1_r u) at 1; apply Rmult_le_compat_l; lra).
    assert (KUE : K * u * E <= K * u * D) by (apply Rmult_le_compat_l; unfold D; lra).
    assert (KUD : K * u * D <= 8 / 2048 * D) by (apply Rmult_le_compat_r; lra).
    assert (UDs : u * D <= / 2048 * D) by (apply Rmult_le_compat_r; lra).
    assert (A : Rabs (1 + e - D) <= K * u * D + / 500 * (u * D)) by (unfold D; replace (1 + e - (1 + E)) with (e - E) by ring; fold D; lra).
    assert (B : Rabs (1 + e) <= 102/100 * D).
    { replace (1 + e) with ((1 + e - D) + D) by ring. eapply Rle_trans; [apply Rabs_triang|]. rewrite (Rabs_pos_eq D) by lra. lra. }
    set (s := a_add FA (a_ofZ FA 1) (t_exp TR (a_opp FA x))) in *.
    assert (C : Rabs (B2R s - D) <= K * u * D + 103/100 * (u * D)).
    { replace (B2R s - D) with ((B2R s - (1 + e)) + (1 + e - D)) by ring. eapply Rle_trans; [apply Rabs_triang|].
      assert (u * Rabs (1 + e) <= u * (102/100 * D)) by (apply Rmult_le_compat_l; lra). lra. }
    assert (Sp : 99/100 * D <= B2R s) by (apply Rabs_le_inv in C; lra).
    set (L := 1 / D). assert (LP : 0 < L <= 1) by (unfold L; split; [apply Rdiv_lt_0_compat; lra|apply (Rmult_le_reg_r D); [lra|]; unfold Rdiv; rewrite Rmult_assoc, Rinv_l by lra; lra]).
    assert (LD : L * D = 1) by (unfold L; field; lra).
    assert (Is : 0 < 1 / B2R s <= 102/100 * L).
    { split; [apply Rdiv_lt_0_compat; lra|]. apply (Rmult_le_reg_r (B2R s)); [lra|]. unfold Rdiv. rewrite Rmult_1_l, Rinv_l by lra.
      assert (102/100 * L * (99/100 * D) <= 102/100 * L * B2R s) by (apply Rmult_le_compat_l; lra). nra. }
    destruct (div_f prec emax Hp He Hp11 (a_ofZ FA 1) s F1 Fs ltac:(lra)) as [Fv Ev]. { rewrite R1, Rabs_pos_eq by lra. lra. }
    split; [exact Fv|]. rewrite R1 in Ev. rewrite (Rabs_pos_eq (1 / B2R s)) in Ev by lra. set (v := B2R (a_div FA (a_ofZ FA 1) s)) in *.
    assert (X : Rabs (1 / B2R s - L) <= 102/100 * L * (K * u + 103/100 * u)).
    { replace (1 / B2R s - L) with ((1 / B2R s) * (L * (D - B2R s))) by (unfold L; field; lra).
      rewrite !Rabs_mult, (Rabs_pos_eq (1 / B2R s)), (Rabs_pos_eq L), Rabs_minus_sym by lra.
      apply Rmult_le_compat; try lra; [apply Rmult_le_pos; [lra|apply Rabs_pos]|].
      assert (L * Rabs (B2R s - D) <= L * (K * u * D + 103/100 * (u * D))) by (apply Rmult_le_compat_l; lra).
      replace (L * (K * u * D + 103/100 * (u * D))) with (L * D * (K * u + 103/100 * u)) in H by ring. rewrite LD in H. lra. }
    replace (v - L) with ((v - 1 / B2R s) + (1 / B2R s - L)) by ring. eapply Rle_trans; [apply Rabs_triang|].
    assert (u * (1 / B2R s) <= u * (102/100 * L)) by (apply Rmult_le_compat_l; lra).
    assert (0 <= K * u * L) by (apply Rmult_le_pos; lra). assert (0 <= u * L) by (apply Rmult_le_pos; lra). lra.
  Qed.

  Lemma deriv_bound (x : F) : libm_close K exp (t_exp TR) (a_opp FA x) -> libm_close K exp (t_exp TR) (a_opp FA (a_opp FA x)) ->
    is_finite (a_add FA (a_ofZ FA 1) (t_exp TR (a_opp FA x))) = true -> is_finite (a_add FA (a_ofZ FA 1) (t_exp TR (a_opp FA (a_opp FA x)))) = true ->
    is_finite (logistic_deriv FA TR x) = true /\
    Rabs (B2R (logistic_deriv FA TR x) - sigmoid (B2R x) * (1 - sigmoid (B2R x))) <= (3 * K + 8) * u * (sigmoid (B2R x) * (1 - sigmoid (B2R x))) + 4 * h.
  Proof.
    intros C1 C2 S1 S2. destruct (logistic_bound x C1 S1) as [Fp Ep]. destruct (logistic_bound (a_opp FA x) C2 S2) as [Fq Eq]. unfold logistic_deriv.
    replace (B2R (a_opp FA x)) with (- B2R x) in Eq by (symmetry; apply B2R_Bopp).
    replace (1 - sigmoid (B2R x)) with (sigmoid (- B2R x)).
    2: { unfold sigmoid. rewrite Ropp_involutive, exp_Ropp. pose proof (exp_pos (B2R x)). field. lra. }
    pose proof (sigmoid_01 (B2R x)) as P1. pose proof (sigmoid_01 (- B2R x)) as Q1. pose proof US as U. pose proof HS as HH. pose proof ku_small as KU.
    set (P := sigmoid (B2R x)) in *. set (Q := sigmoid (- B2R x)) in *. set (p := logistic FA TR x) in *. set (q := logistic FA TR (a_opp FA x)) in *.
    set (a := (11/10 * K + 3) * u) in *. assert (HA : 0 <= a <= 6/1000) by (unfold a; lra).
    assert (AP : a * P <= a) by (rewrite <- (Rmult_1_r a) at 2; apply Rmult_le_compat_l; lra). assert (AQ : a * Q <= a) by (rewrite <- (Rmult_1_r a) at 2; apply Rmult_le_compat_l; lra).
    assert (PQ : 0 < P * Q <= 1) by (split; [apply Rmult_lt_0_compat; lra|rewrite <- (Rmult_1_r 1); apply Rmult_le_compat; lra]).
    assert (X : Rabs (B2R p * B2R q - P * Q) <= 201/100 * a * (P * Q) + 21/10 * h).
    { replace (B2R p * B2R q - P * Q) with (P * (B2R q - Q) + (B2R p - P) * B2R q) by ring. eapply Rle_trans; [apply Rabs_triang|].
      rewrite !Rabs_mult, (Rabs_pos_eq P) by lra.
      assert (BQ : Rabs (B2R q) <= Q + (a * Q + h)) by (replace (B2R q) with ((B2R q - Q) + Q) by ring; eapply Rle_trans; [apply Rabs_triang|]; rewrite (Rabs_pos_eq Q) by lra; lra).
      assert (T1 : P * Rabs (B2R q - Q) <= P * (a * Q + h)) by (apply Rmult_le_compat_l; lra).
      assert (T2 : Rabs (B2R p - P) * Rabs (B2R q) <= (a * P + h) * (Q + (a * Q + h))) by (apply Rmult_le_compat; try lra; apply Rabs_pos).
      assert (P * h <= 1 * h) by (apply Rmult_le_compat_r; lra). assert (a * P * (a * Q) <= 6/1000 * (a * (P * Q))).
      { replace (a * P * (a * Q)) with (a * (a * (P * Q))) by ring. apply Rmult_le_compat_r; [|lra]. apply Rmult_le_pos; lra. }
      assert (h * (Q + (a * Q + h)) <= h * (102/100)) by (apply Rmult_le_compat_l; lra).
      assert (a * P * h <= 6/1000 * h) by (apply Rmult_le_compat_r; lra). assert (0 <= a * (P * Q)) by (apply Rmult_le_pos; lra). lra. }
    assert (Y : Rabs (B2R p * B2R q) <= 102/100 * (P * Q) + 21/10 * h).
    { replace (B2R p * B2R q) with ((B2R p * B2R q - P * Q) + P * Q) by ring. eapply Rle_trans; [apply Rabs_triang|]. rewrite (Rabs_pos_eq (P * Q)) by lra.
      assert (a * (P * Q) <= 6/1000 * (P * Q)) by (apply Rmult_le_compat_r; lra). lra. }
    assert (Fm : is_finite (a_mul FA p q) = true) by (apply (mul_f prec emax Hp He Hp11); try assumption; lra).
    split; [exact Fm|]. pose proof (mul_e prec emax Hp He Hp11 p q Fm) as Em.
    replace (B2R (a_mul FA p q) - P * Q) with ((B2R (a_mul FA p q) - B2R p * B2R q) + (B2R p * B2R q - P * Q)) by ring. eapply Rle_trans; [apply Rabs_triang|].
    assert (u * Rabs (B2R p * B2R q) <= u * (102/100 * (P * Q) + 21/10 * h)) by (apply Rmult_le_compat_l; lra).
    assert (u * h <= / 2048 * h) by (apply Rmult_le_compat_r; lra).
    replace (a * (P * Q)) with ((11/10 * K + 3) * (u * (P * Q))) in * by (unfold a; ring).
    assert (0 <= u * (P * Q)) by (apply Rmult_le_pos; lra). assert (0 <= K * (u * (P * Q))) by (apply Rmult_le_pos; lra).
    replace (201 / 100 * a * (P * Q)) with (201/100 * ((11/10 * K + 3) * (u * (P * Q)))) in X by (unfold a; ring). lra.
  Qed.

  Lemma soft_err (y : F) : is_finite y = true -> B2R y <= 0 -> libm_close K exp (t_exp TR) y ->
    (forall t : F, is_finite t = true -> - / 1000 <= B2R t <= 2 -> libm_close K log1pR (t_log1p TR) t) ->
    is_finite (t_log1p TR (t_exp TR y)) = true /\
    Rabs (B2R (t_log1p TR (t_exp TR y)) - log1pR (exp (B2R y))) <= 31/10 * K * u * log1pR (exp (B2R y)) + 42/10 * h.
  Proof.
    intros Fy Hy [Fe Ee] HL. pose proof US as U. pose proof HS as HH. pose proof ku_small as KU. pose proof (exp_pos (B2R y)) as PE.
    assert (E1 : exp (B2R y) <= 1) by (rewrite <- exp_0; destruct (Req_dec (B2R y) 0) as [->|]; [lra|left; apply exp_increasing; lra]).
    pose proof (log1p_half (exp (B2R y)) ltac:(lra)) as LH. set (T := exp (B2R y)) in *. rewrite (Rabs_pos_eq T) in Ee by lra.
    assert (KT : K * u * T <= K * u * 1) by (apply Rmult_le_compat_l; lra).
    set (t := t_exp TR y) in *. assert (Bt : - / 1000 <= B2R t <= 2) by (apply Rabs_le_inv in Ee; assert (K * u * T <= 8 / 2048 * T) by (apply Rmult_le_compat_r; lra); lra).
    destruct (HL t Fe Bt) as [Fl El]. split; [exact Fl|]. pose proof (ln_lip (B2R t) T ltac:(lra) ltac:(lra)) as LL. set (P := log1pR T) in *.
    assert (KTP : K * u * T <= 2 * (K * u * P)) by (assert (K * u * T <= K * u * (2 * P)) by (apply Rmult_le_compat_l; lra); lra).
    assert (BP : Rabs (log1pR (B2R t)) <= P + 101/100 * (2 * (K * u * P) + 2 * h)).
    { replace (log1pR (B2R t)) with ((log1pR (B2R t) - P) + P) by ring. eapply Rle_trans; [apply Rabs_triang|]. rewrite (Rabs_pos_eq P) by lra. lra. }
    replace (B2R (t_log1p TR t) - P) with ((B2R (t_log1p TR t) - log1pR (B2R t)) + (log1pR (B2R t) - P)) by ring. eapply Rle_trans; [apply Rabs_triang|].
    assert (KUP : 0 <= K * u * P) by (apply Rmult_le_pos; lra).
    assert (Z : K * u * Rabs (log1pR (B2R t)) <= K * u * P + 8 / 2048 * (101/100 * (2 * (K * u * P) + 2 * h))).
    { eapply Rle_trans; [apply Rmult_le_compat_l; [lra|exact BP]|]. rewrite Rmult_plus_distr_l. apply Rplus_le_compat_l. apply Rmult_le_compat_r; lra. }
    lra.
  Qed.

  Lemma log_logistic_bound (x : F) : is_finite x = true ->
    (forall y : F, is_finite y = true -> B2R y <= 0 -> libm_close K exp (t_exp TR) y) ->
    (forall t : F, is_finite t = true -> - / 1000 <= B2R t <= 2 -> libm_close K log1pR (t_log1p TR) t) ->
    is_finite (log_logistic FA TR x) = true ->
    Rabs (B2R (log_logistic FA TR x) - ln (sigmoid (B2R x))) <= (4 * K + 1) * u * Rabs (ln (sigmoid (B2R x))) + 5 * h.
  Proof.
    intros Fx HE HL. unfold log_logistic. cbn [a_cmp farith]. destruct (small_int prec emax Hp He Hp11 0 ltac:(lia)) as [F0 R0]. pose proof US as U. pose proof HS as HH. pose proof ku_small as KU.
    rewrite lt_Rb by assumption. rewrite R0. destruct (Rlt_dec (B2R x) 0) as [N|N].
    - intros Fv. destruct (soft_err x Fx ltac:(lra) (HE x Fx ltac:(lra)) HL) as [_ Es]. pose proof (sub_e prec emax Hp He _ _ Fv) as Ev. rewrite ln_sigmoid_neg.
      pose proof (exp_pos (B2R x)) as PE. assert (E1 : exp (B2R x) <= 1) by (rewrite <- exp_0; left; apply exp_increasing; lra).
      pose proof (log1p_half (exp (B2R x)) ltac:(lra)) as LH. set (P := log1pR (exp (B2R x))) in *. set (l := B2R (t_log1p TR (t_exp TR x))) in *.
      set (X := B2R x) in *. assert (AR : Rabs (X - P) = - X + P) by (rewrite Rabs_left1; lra). rewrite AR.
      set (e := 31/10 * K * u * P + 42/10 * h) in *. assert (KUP : 0 <= K * u * P) by (apply Rmult_le_pos; lra).
      assert (B : Rabs (X - l) <= - X + P + e) by (replace (X - l) with ((X - P) + - (l - P)) by ring; eapply Rle_trans; [apply Rabs_triang|]; rewrite Rabs_Ropp; lra).
      assert (u * Rabs (X - l) <= u * (- X + P) + / 2048 * e).
      { eapply Rle_trans; [apply Rmult_le_compat_l; [lra|exact B]|]. rewrite Rmult_plus_distr_l. apply Rplus_le_compat_l. apply Rmult_le_compat_r; unfold e; lra. }
      set (w := B2R (a_sub FA x (t_log1p TR (t_exp TR x)))) in *.
      replace (w - (X - P)) with ((w - (X - l)) + - (l - P)) by ring. eapply Rle_trans; [apply Rabs_triang|]. rewrite Rabs_Ropp.
      assert (K * u * P <= K * u * (- X + P)) by (apply Rmult_le_compat_l; lra). unfold e in *. lra.
    - intros _. assert (Fo : is_finite (a_opp FA x) = true) by (cbn [a_opp farith]; rewrite is_finite_Bopp; exact Fx).
      assert (Eo : B2R (a_opp FA x) = - B2R x) by apply B2R_Bopp.
      destruct (soft_err (a_opp FA x) Fo ltac:(lra) (HE _ Fo ltac:(lra)) HL) as [_ Es]. rewrite Eo in Es. rewrite ln_sigmoid, Rabs_Ropp.
      pose proof (exp_pos (- B2R x)) as PE. assert (E1 : exp (- B2R x) <= 1) by (rewrite <- exp_0; destruct (Req_dec (B2R x) 0) as [->|]; [rewrite Ropp_0; lra|left; apply exp_increasing; lra]).
      pose proof (log1p_half (exp (- B2R x)) ltac:(lra)) as LH. set (P := log1pR (exp (- B2R x))) in *.
      replace (B2R (a_opp FA (t_log1p TR (t_exp TR (a_opp FA x))))) with (- B2R (t_log1p TR (t_exp TR (a_opp FA x)))) by (symmetry; apply B2R_Bopp).
      rewrite (Rabs_pos_eq P) by lra. replace (- B2R (t_log1p TR (t_exp TR (a_opp FA x))) - - P) with (- (B2R (t_log1p TR (t_exp TR (a_opp FA x))) - P)) by ring. rewrite Rabs_Ropp.
      assert (KUP : 0 <= K * u * P) by (apply Rmult_le_pos; lra). assert (0 <= u * P) by (apply Rmult_le_pos; lra). lra.
  Qed.
End LogiF.

(** correctly rounded functions satisfy the contract *)
From Verif Require Import S_Special S_Log1p P_SpecialF P_Log1p P_Log1pF.
Lemma libm_exists (g : R -> R) (z : f64) : Rabs (g (B2R z)) <= 1000 -> libm_close 2 g (fun z => f64_of_R (g (B2R z))) z.
Proof.
  unfold libm_close. generalize (g (B2R z)). intros r B. destruct (rep_of_R 10 r ltac:(lia)) as (A & E & _). { eapply Rle_trans; [exact B|]. change (pow2 10) with 1024. lra. }
  split; [exact A|]. rewrite E. pose proof (rnd_err 53 1024 ltac:(lia) r) as R.
  pose proof (u_small 53 ltac:(lia)) as U. pose proof (h_small 53 1024 ltac:(reflexivity) ltac:(lia)) as HH.
  assert (W : 0 <= u_ro radix2 53 * Rabs r) by (apply Rmult_le_pos; [lra|apply Rabs_pos]).
  eapply Rle_trans; [exact R|]. change f64_prec with 53%Z. change f64_emax with 1024%Z. unfold half_eta in *.
  set (e := / 2 * bpow radix2 (3 - 1024 - 53)) in *. clearbody e. rewrite Rmult_assoc. lra.
Qed.
Definition libm64 : transc f64 :=
  mkTransc _ (fun z => f64_of_R (exp (B2R z))) (fun z => f64_of_R (ln (B2R z))) (fun z => f64_of_R (log1pR (B2R z))) (fun z => f64_of_R (exp (B2R z) - 1)) (fun x _ => x).
Lemma libm64_exp (y : f64) : B2R y <= 0 -> libm_close 2 exp (t_exp libm64) y.
Proof.
  intros H. apply (libm_exists exp). pose proof (exp_pos (B2R y)). rewrite Rabs_pos_eq by lra.
  assert (exp (B2R y) <= exp 0) by (destruct H as [H| ->]; [left; apply exp_increasing; exact H|lra]). rewrite exp_0 in *. lra.
Qed.
Lemma libm64_log1p (t : f64) : - / 1000 <= B2R t <= 2 -> libm_close 2 log1pR (t_log1p libm64) t.
Proof.
  intros H. apply (libm_exists log1pR). pose proof (ln_lip (B2R t) 0 ltac:(lra) ltac:(lra)) as L. unfold log1pR in *. rewrite Rplus_0_r, ln_1, !Rminus_0_r in L.
  eapply Rle_trans; [exact L|]. assert (Rabs (B2R t) <= 2) by (apply Rabs_le; lra). lra.
Qed.
