(** Rounding error of semivar_exponential, for a library exp accurate to a few units in the last place. *)
From Coq Require Import ZArith Reals List Bool Lia Lra Psatz SpecFloat.
From Flocq Require Import Core BinarySingleNaN Plus_error Mult_error Relative.
From Verif Require Import CSem CSemP Num NumP NumF M_Elem S_Signal S_Line S_StepF S_LogiF S_VarioF P_Kbn P_SumF P_LineF P_StepF P_RampF P_LogiF.
Open Scope R_scope.

Lemma exp_diff a b : exp a - exp b <= exp a * (a - b).
Proof.
  pose proof (exp_ineq1_le (b - a)) as E. pose proof (exp_pos a). replace (exp b) with (exp a * exp (b - a)) by (rewrite <- exp_plus; f_equal; ring).
  assert (exp a * (1 + (b - a)) <= exp a * exp (b - a)) by (apply Rmult_le_compat_l; lra). lra.
Qed.
Lemma exp_mult a : a <= 0 -> exp a * - a <= 1 /\ 0 < exp a <= 1.
Proof.
  intros Ha. pose proof (exp_pos a) as P. split.
  - pose proof (exp_ineq1_le (- a)) as E. assert (exp a * - a <= exp a * exp (- a)) by (apply Rmult_le_compat_l; lra). rewrite <- exp_plus in H. replace (a + - a) with 0 in H by ring. rewrite exp_0 in H. exact H.
  - split; [exact P|]. rewrite <- exp_0. destruct (Req_dec a 0) as [->|]; [lra|left; apply exp_increasing; lra].
Qed.
Lemma exp_pert z q e d : z <= 0 -> q <= 0 -> 0 <= e <= / 500 -> 0 <= d -> Rabs (q - z) <= e * - z + d -> Rabs (exp q - exp z) <= 101/100 * (e + d).
Proof.
  intros Hz Hq He Hd H. apply Rabs_le_inv in H. destruct (exp_mult z Hz) as [Z1 Z2]. destruct (exp_mult q Hq) as [Q1 Q2].
  pose proof (exp_diff q z) as D1. pose proof (exp_diff z q) as D2. apply Rabs_le. split.
  - destruct (Rle_dec z q) as [C|C]; [assert (0 <= exp q - exp z) by (assert (exp z <= exp q) by (destruct C as [C| ->]; [left; apply exp_increasing; exact C|lra]); lra); lra|].
    assert (exp z * (z - q) <= exp z * (e * - z + d)) by (apply Rmult_le_compat_l; lra).
    assert (exp z * d <= 1 * d) by (apply Rmult_le_compat_r; lra). assert (e * (exp z * - z) <= e * 1) by (apply Rmult_le_compat_l; lra). lra.
  - destruct (Rle_dec q z) as [C|C]; [assert (exp q - exp z <= 0) by (assert (exp q <= exp z) by (destruct C as [C| ->]; [left; apply exp_increasing; exact C|lra]); lra); lra|].
    set (w := q - z) in *. assert (W : w * (1 - e) <= e * - q + d) by (unfold w in *; lra).
    assert (A : exp q * (w * (1 - e)) <= exp q * (e * - q + d)) by (apply Rmult_le_compat_l; lra).
    assert (exp q * d <= 1 * d) by (apply Rmult_le_compat_r; lra). assert (e * (exp q * - q) <= e * 1) by (apply Rmult_le_compat_l; lra).
    set (X := exp q * w) in *. assert (XP : 0 <= X) by (unfold X, w; apply Rmult_le_pos; lra). assert (X * (1 - e) <= e + d) by (unfold X; lra).
    assert (X * e <= X * / 500) by (apply Rmult_le_compat_l; lra). lra.
Qed.

Section VarioF.
  Context (prec emax : Z).
  Context (Hp : Prec_gt_0 prec) (He : Prec_lt_emax prec emax).
  Context (Hp11 : (11 <= prec)%Z).
  Notation F := (binary_float prec emax).
  Notation FA := (farith prec emax Hp He).
  Notation rnd := (rnd prec emax).
  Notation emin := (3 - emax - prec)%Z.
  Notation u := (u_ro radix2 prec).
  Notation h := (half_eta prec emax).
  Context (TR : transc F) (K : R) (HK : 0 <= K <= 8).
  Notation US := (u_small prec Hp11).
  Notation HS := (h_small prec emax He Hp11).
  Let Hp1 : (1 < prec)%Z. Proof. lia. Qed.

  Lemma rnd_neg x : x <= 0 -> rnd x <= 0.
  Proof.
    intros H. unfold NumF.rnd. change (SpecFloat.fexp prec emax) with (FLT_exp emin prec). apply (Rle_trans _ (round radix2 (FLT_exp emin prec) ZnearestE 0)); [apply round_le; [typeclasses eauto|typeclasses eauto|exact H]|]. rewrite round_0 by typeclasses eauto. lra.
  Qed.
  (** multiplication by 3 never loses digits to underflow *)
  Lemma three_err (x : F) : Rabs (rnd (- 3 * B2R x) - - 3 * B2R x) <= u * Rabs (- 3 * B2R x).
  Proof.
    assert (G : generic_format radix2 (FLT_exp emin prec) (B2R (Bopp x))) by apply generic_format_B2R.
    assert (G2 : generic_format radix2 (FLT_exp emin prec) (B2R (Bopp x) * bpow radix2 1)) by (apply mult_bpow_pos_exact_FLT; [exact G|lia]).
    destruct (FLT_plus_error_N_ex radix2 emin prec (fun x => negb (Z.even x)) _ _ G G2) as (e1 & B1 & E1).
    rewrite B2R_Bopp in E1. change (bpow radix2 1) with 2 in E1. replace (- B2R x + - B2R x * 2) with (-3 * B2R x) in E1 by ring.
    unfold NumF.rnd. change (SpecFloat.fexp prec emax) with (FLT_exp emin prec). change (round_mode mode_NE) with (Znearest (fun x => negb (Z.even x))). rewrite E1.
    replace (-3 * B2R x * (1 + e1) - -3 * B2R x) with (e1 * (-3 * B2R x)) by ring. rewrite Rabs_mult. apply Rmult_le_compat_r; [apply Rabs_pos|].
    eapply Rle_trans; [exact B1|]. pose proof US as U. apply (Rmult_le_reg_r (1 + u)); [lra|]. unfold Rdiv. rewrite Rmult_assoc, Rinv_l by lra. nra.
  Qed.

  Theorem exponential_bound (x ng sl r : F) : is_finite r = true -> 0 <= B2R x -> 0 < B2R r ->
    (forall y : F, is_finite y = true -> B2R y <= 0 -> libm_close K exp (t_exp TR) y) ->
    is_finite (a_div FA (a_mul FA (a_ofZ FA (-3)) x) r) = true ->
    is_finite (semivar_exponential FA TR x ng sl r) = true ->
    Rabs (B2R (semivar_exponential FA TR x ng sl r) - exp_variogram (B2R ng) (B2R sl) (B2R r) (B2R x))
      <= u * (Rabs (B2R ng) + Rabs (B2R sl)) + (K + 6) * (u * Rabs (B2R sl - B2R ng)) + 2 * h.
  Proof.
    intros Fr X0 R0 HL Fq Fv. unfold semivar_exponential in *. pose proof US as U. pose proof HS as HH. pose proof (ku_small prec Hp11 K HK) as KU.
    destruct (small_int prec emax Hp He Hp11 (-3) ltac:(lia)) as [_ R3]. destruct (small_int prec emax Hp He Hp11 1 ltac:(lia)) as [_ R1].
    destruct (div_fin prec emax Hp He _ _ Fr ltac:(lra) Fq) as (Fm & Eq). destruct (mult_fin prec emax Hp He _ _ Fm) as (_ & _ & Em).
    rewrite R3 in Em. pose proof (three_err x) as E3. rewrite <- Em in E3. assert (M0 : B2R (a_mul FA (a_ofZ FA (-3)) x) <= 0) by (rewrite Em; apply rnd_neg; lra).
    set (m := a_mul FA (a_ofZ FA (-3)) x) in *. set (q := a_div FA m r) in *. set (z := - 3 * B2R x / B2R r).
    assert (IR : 0 < / B2R r) by (apply Rinv_0_lt_compat; exact R0).
    assert (Z0 : z <= 0) by (unfold z, Rdiv; assert (0 <= 3 * B2R x * / B2R r) by (apply Rmult_le_pos; lra); lra).
    assert (Q0 : B2R q <= 0) by (rewrite Eq; apply rnd_neg; unfold Rdiv; assert (0 <= - B2R m * / B2R r) by (apply Rmult_le_pos; lra); lra).
    assert (A : Rabs (B2R m / B2R r - z) <= u * - z).
    { replace (B2R m / B2R r - z) with ((B2R m - -3 * B2R x) * / B2R r) by (unfold z; field; lra). rewrite Rabs_mult, (Rabs_pos_eq (/ B2R r)) by lra.
      replace (u * - z) with (u * Rabs (-3 * B2R x) * / B2R r) by (rewrite (Rabs_left1 (-3 * B2R x)) by lra; unfold z; field; lra). apply Rmult_le_compat_r; lra. }
    assert (B : Rabs (B2R q - z) <= 201/100 * u * - z + h).
    { pose proof (rnd_err prec emax Hp1 (B2R m / B2R r)) as E. rewrite <- Eq in E. fold h in E.
      replace (B2R q - z) with ((B2R q - B2R m / B2R r) + (B2R m / B2R r - z)) by ring. eapply Rle_trans; [apply Rabs_triang|].
      assert (Rabs (B2R m / B2R r) <= - z + u * - z) by (replace (B2R m / B2R r) with ((B2R m / B2R r - z) + z) by ring; eapply Rle_trans; [apply Rabs_triang|]; rewrite (Rabs_left1 z) by lra; lra).
      assert (u * Rabs (B2R m / B2R r) <= u * (- z + u * - z)) by (apply Rmult_le_compat_l; lra).
      assert (0 <= u * - z) by (apply Rmult_le_pos; lra). assert (u * (u * - z) <= / 2048 * (u * - z)) by (apply Rmult_le_compat_r; lra). lra. }
    pose proof (exp_pert z (B2R q) (201/100 * u) h Z0 Q0 ltac:(lra) ltac:(lra) B) as C. destruct (exp_mult z Z0) as [_ EZ]. destruct (exp_mult (B2R q) Q0) as [_ EQ].
    destruct (HL q Fq Q0) as [Ft Et]. rewrite (Rabs_pos_eq (exp (B2R q))) in Et by lra.
    assert (ET : err u h 1 (K + 22/10) 0 (B2R (t_exp TR q)) (exp z)).
    { unfold err. replace (B2R (t_exp TR q) - exp z) with ((B2R (t_exp TR q) - exp (B2R q)) + (exp (B2R q) - exp z)) by ring. eapply Rle_trans; [apply Rabs_triang|].
      assert (K * u * exp (B2R q) <= K * u * 1) by (apply Rmult_le_compat_l; lra). lra. }
    destruct (plus_fin prec emax Hp He _ _ Fv) as (_ & F3 & _). destruct (mult_fin prec emax Hp He _ _ F3) as (FD & Fp & _).
    pose proof (diff_e prec emax Hp He _ _ FD) as ED. pose proof (Rabs_pos (B2R sl - B2R ng)) as PD. set (D := B2R sl - B2R ng) in *.
    assert (Q : err u h 1 (K + 33/10) 0 (B2R (a_sub FA (a_ofZ FA 1) (t_exp TR q))) (1 + - exp z)).
    { pose proof (sub_e prec emax Hp He _ _ Fp) as M. rewrite R1 in M.
      refine (err_sum u h U HH 1 0 0 (K + 22/10) 0 1 _ _ 1 1 _ _ _ _ _ _ _ _ _ _ (err_exact u h 1 1) (err_opp u h 1 _ 0 _ _ ET) M _ _ _); unfold U1; try lra.
      split; [reflexivity|]. rewrite Rabs_pos_eq; lra. }
    assert (E4 : err u h (Rabs D) (K + 54/10) 1 (B2R (a_mul FA (a_sub FA sl ng) (a_sub FA (a_ofZ FA 1) (t_exp TR q)))) (D * (1 + - exp z))).
    { refine (err_mul u h U HH (Rabs D) 1 0 (K + 33/10) 1 1 1 _ _ _ _ _ _ _ _ _ _ _ _ _ _ ED Q _ _ _ (mul_e prec emax Hp He Hp11 _ _ F3) _ _); unfold U1; try lra.
      - rewrite Rabs_pos_eq; lra.
      - apply Rabs_le_mul; lra. }
    eapply Rle_trans; [exact (err_last u h U HH (Rabs D) (K + 54/10) 1 (K + 6) 2 _ _ _ _ PD ltac:(lra) ltac:(lra) E4 (add_e prec emax Hp He _ _ Fv) ltac:(unfold U1; lra) ltac:(unfold U1; lra))|].
    assert (Y : Rabs (B2R ng + D * (1 + - exp z)) <= Rabs (B2R ng) + Rabs (B2R sl)) by (apply mix_abs; lra).
    assert (u * Rabs (B2R ng + D * (1 + - exp z)) <= u * (Rabs (B2R ng) + Rabs (B2R sl))) by (apply Rmult_le_compat_l; lra). lra.
  Qed.
End VarioF.
