(** Rounding error of hyperbolic_ramp. *)
From Coq Require Import ZArith Reals List Bool Lia Lra Psatz SpecFloat.
From Flocq Require Import Core BinarySingleNaN Plus_error Relative.
From Verif Require Import CSem CSemP Num NumP NumF M_Elem S_Signal S_Line S_StepF S_RampF P_Kbn P_SumF P_LineF P_StepF P_Ramp.
Open Scope R_scope.

(** ** the ramp as a real function *)
Lemma rh_lip x y : 0 <= x -> Rabs (rh y - rh x) <= 2 * Rabs (y - x).
Proof.
  intros _. unfold rh. pose proof (sq1_gt x) as A. pose proof (sq1_gt y) as B.
  set (s := sqrt (x * x + 1)) in *. set (t := sqrt (y * y + 1)) in *.
  assert (S : s * s = x * x + 1) by (apply sqrt_sqrt; pose proof (sq1_pos x); lra).
  assert (T : t * t = y * y + 1) by (apply sqrt_sqrt; pose proof (sq1_pos y); lra).
  pose proof (Rabs_pos x). pose proof (Rabs_pos y). assert (P : 0 < s + t) by lra.
  assert (E : (t - s) * (s + t) = (y - x) * (x + y)) by nra.
  assert (L : Rabs (t - s) <= Rabs (y - x)).
  { apply (Rmult_le_reg_r (s + t)); [exact P|]. rewrite <- (Rabs_pos_eq (s + t)) at 1 by lra. rewrite <- Rabs_mult, E, Rabs_mult.
    apply Rmult_le_compat_l; [apply Rabs_pos|]. eapply Rle_trans; [apply Rabs_triang|]. lra. }
  replace (y + t - (x + s)) with ((y - x) + (t - s)) by ring. eapply Rle_trans; [apply Rabs_triang|]. lra.
Qed.
Lemma rh_ge1 x : 0 <= x -> 1 <= rh x.
Proof. intros H. unfold rh. assert (1 <= sqrt (x * x + 1)) by (rewrite <- sqrt_1 at 1; apply sqrt_le_1; nra). lra. Qed.
Lemma rh_ge2 x : 0 <= x -> 2 * x <= rh x.
Proof. intros H. unfold rh. pose proof (sq1_gt x). rewrite Rabs_pos_eq in * by lra. lra. Qed.
(** a relative change of the argument changes the value relatively *)
Lemma rh_perturb e g x y : 0 <= e -> 0 <= g -> e + 2 * g <= / 100 -> Rabs (y - x) <= e * Rabs x + g ->
  Rabs (rh y - rh x) <= 102 / 100 * (e + 2 * g) * rh x.
Proof.
  intros He Hg Hs H.
  assert (P : forall x y, 0 <= x -> Rabs (y - x) <= e * Rabs x + g -> Rabs (rh y - rh x) <= (e + 2 * g) * rh x).
  { intros a b Ha Hab. eapply Rle_trans; [apply rh_lip; exact Ha|]. rewrite (Rabs_pos_eq a) in Hab by exact Ha.
    pose proof (rh_ge1 a Ha) as R1. pose proof (rh_ge2 a Ha) as R2.
    assert (e * (2 * a) <= e * rh a) by (apply Rmult_le_compat_l; lra). assert (2 * g * 1 <= 2 * g * rh a) by (apply Rmult_le_compat_l; lra). lra. }
  set (d := e + 2 * g) in *. assert (Hd : 0 <= d) by (unfold d; lra).
  destruct (Rle_lt_dec 0 x) as [X|X].
  - eapply Rle_trans; [exact (P x y X H)|]. fold d. pose proof (rh_pos x). assert (d * rh x <= 102 / 100 * (d * rh x)) by (assert (0 <= d * rh x) by (apply Rmult_le_pos; lra); lra). lra.
  - assert (H' : Rabs (rh (- y) - rh (- x)) <= d * rh (- x)).
    { apply P; [lra|]. rewrite Rabs_Ropp. replace (- y - - x) with (- (y - x)) by ring. rewrite Rabs_Ropp. exact H. }
    pose proof (rh_prod x) as E1. pose proof (rh_prod y) as E2. pose proof (rh_pos x) as P1. pose proof (rh_pos y) as P2.
    pose proof (rh_pos (- x)) as P3. pose proof (rh_pos (- y)) as P4.
    set (a := rh x) in *. set (b := rh y) in *. set (c := rh (- x)) in *. set (f := rh (- y)) in *.
    (* b - a = a b (c - f) *)
    assert (E : b - a = a * b * (c - f)) by (replace (a * b * (c - f)) with ((a * c) * b - a * (b * f)) by ring; rewrite E1, E2; ring).
    assert (F : f >= (1 - / 100) * c) by (apply Rabs_le_inv in H'; assert (d * c <= / 100 * c) by (apply Rmult_le_compat_r; lra); lra).
    assert (B : b * c <= 102 / 100).
    { assert (b * ((1 - / 100) * c) <= b * f) by (apply Rmult_le_compat_l; lra). lra. }
    rewrite E, !Rabs_mult, (Rabs_pos_eq a), (Rabs_pos_eq b) by lra. rewrite Rabs_minus_sym.
    assert (a * b * Rabs (f - c) <= a * b * (d * c)) by (apply Rmult_le_compat_l; [apply Rmult_le_pos; lra|exact H']).
    assert (a * (d * (b * c)) <= a * (d * (102 / 100))) by (apply Rmult_le_compat_l; [lra|]; apply Rmult_le_compat_l; lra). lra.
Qed.
Lemma sqrt_diff a b : 1 <= b -> 0 <= a -> Rabs (sqrt a - sqrt b) <= Rabs (a - b).
Proof.
  intros Hb Ha. pose proof (sqrt_pos a) as P1. assert (P2 : 1 <= sqrt b) by (rewrite <- sqrt_1; apply sqrt_le_1; lra).
  replace (a - b) with ((sqrt a - sqrt b) * (sqrt a + sqrt b)).
  2: { rewrite <- (sqrt_sqrt a Ha) at 3. rewrite <- (sqrt_sqrt b) at 3 by lra. ring. }
  rewrite Rabs_mult, (Rabs_pos_eq (sqrt a + sqrt b)) by lra. pose proof (Rabs_pos (sqrt a - sqrt b)). nra.
Qed.

Section RampF.
  Context (prec emax : Z).
  Context (Hp : Prec_gt_0 prec) (He : Prec_lt_emax prec emax).
  Context (Hp11 : (11 <= prec)%Z).
  Notation F := (binary_float prec emax).
  Notation FA := (farith prec emax Hp He).
  Notation rnd := (rnd prec emax).
  Notation emin := (3 - emax - prec)%Z.
  Notation u := (u_ro radix2 prec).
  Notation h := (half_eta prec emax).
  Notation err := (err u h).
  Let Hp1 : (1 < prec)%Z. Proof. lia. Qed.
  Notation US := (u_small prec Hp11).
  Notation HS := (h_small prec emax He Hp11).
  Ltac num := unfold U1; try lra.

  Lemma rnd_e r : Rabs (rnd r - r) <= u * Rabs r + h.
  Proof. apply (rnd_err prec emax Hp1). Qed.
  Lemma fin_frnd (f : F) r : f2e prec emax f = frnd prec emax r -> Rabs r <= 1000 -> is_finite f = true /\ B2R f = rnd r.
  Proof.
    intros E B. unfold NumF.frnd in E. rewrite Rlt_bool_true in E; [exact (f2e_fin_finite prec emax _ _ E)|].
    apply Rle_lt_trans with 1024; [|change 1024 with (bpow radix2 10); apply bpow_lt; red in He; lia].
    pose proof (rnd_e r) as R. pose proof US as U. pose proof HS as HH. assert (u * Rabs r <= / 2048 * 1000) by (apply Rmult_le_compat; try lra; apply Rabs_pos).
    replace (rnd r) with ((rnd r - r) + r) by ring. eapply Rle_trans; [apply Rabs_triang|]. lra.
  Qed.
  Lemma add_f (f g : F) : is_finite f = true -> is_finite g = true -> Rabs (B2R f + B2R g) <= 1000 -> is_finite (a_add FA f g) = true.
  Proof. intros A B C. apply (fin_frnd _ (B2R f + B2R g)); [exact (f2e_plus prec emax Hp He f g A B)|exact C]. Qed.
  Lemma sub_f (f g : F) : is_finite f = true -> is_finite g = true -> Rabs (B2R f - B2R g) <= 1000 -> is_finite (a_sub FA f g) = true.
  Proof. intros A B C. apply (fin_frnd _ (B2R f - B2R g)); [exact (f2e_minus prec emax Hp He f g A B)|exact C]. Qed.
  Lemma mul_f (f g : F) : is_finite f = true -> is_finite g = true -> Rabs (B2R f * B2R g) <= 1000 -> is_finite (a_mul FA f g) = true.
  Proof. intros A B C. apply (fin_frnd _ (B2R f * B2R g)); [exact (f2e_mult prec emax Hp He f g A B)|exact C]. Qed.
  Lemma div_f (f g : F) : is_finite f = true -> is_finite g = true -> B2R g <> 0 -> Rabs (B2R f / B2R g) <= 1000 ->
    is_finite (a_div FA f g) = true /\ Rabs (B2R (a_div FA f g) - B2R f / B2R g) <= u * Rabs (B2R f / B2R g) + h.
  Proof.
    intros A B N C. destruct (fin_frnd _ (B2R f / B2R g) (f2e_div prec emax Hp He f g A B N) C) as [X Y]. split; [exact X|]. pose proof (rnd_e (B2R f / B2R g)) as R. rewrite <- Y in R. exact R.
  Qed.
  Lemma sqrt_f (f : F) : is_finite f = true -> 0 <= B2R f -> is_finite (a_sqrt FA f) = true.
  Proof. intros A B. exact (proj1 (f2e_fin_finite prec emax _ _ (f2e_sqrt prec emax Hp He f A B))). Qed.
  Notation one := (a_ofZ FA 1).
  Lemma one_R : is_finite one = true /\ B2R one = 1.
  Proof. exact (small_int prec emax Hp He Hp11 1 ltac:(lia)). Qed.

  (** 1 / (z * z), whether or not z * z overflows *)
  Lemma inv_sq (z : F) : is_finite z = true -> 1 <= Rabs (B2R z) ->
    is_finite (a_div FA one (a_mul FA z z)) = true /\ err 1 (22/10) 0 (B2R (a_div FA one (a_mul FA z z))) (1 / (B2R z * B2R z)).
  Proof.
    intros Fz Hz. pose proof US as U. pose proof HS as HH. destruct one_R as [F1 R1].
    set (Z := B2R z) in *. assert (Z2 : 1 <= Z * Z) by (rewrite <- (Rabs_pos_eq (Z * Z)) by (apply Rle_0_sqr); rewrite Rabs_mult; nra).
    assert (I2 : 0 < 1 / (Z * Z) <= 1).
    { split; [apply Rdiv_lt_0_compat; lra|]. apply (Rmult_le_reg_r (Z * Z)); [lra|]. unfold Rdiv. rewrite Rmult_assoc, Rinv_l by lra. lra. }
    destruct (is_finite (a_mul FA z z)) eqn:Fq.
    - pose proof (mul_e prec emax Hp He Hp11 z z Fq) as Eq. fold Z in Eq. rewrite (Rabs_pos_eq (Z * Z)) in Eq by lra.
      set (q := a_mul FA z z) in *. assert (Bq : 99/100 * (Z * Z) <= B2R q).
      { apply Rabs_le_inv in Eq. assert (u * (Z * Z) <= / 2048 * (Z * Z)) by (apply Rmult_le_compat_r; lra). lra. }
      assert (Iq : 0 < 1 / B2R q <= 102/100 * (1 / (Z * Z))).
      { split; [apply Rdiv_lt_0_compat; lra|]. apply (Rmult_le_reg_r (B2R q)); [lra|]. unfold Rdiv. rewrite !Rmult_1_l, Rinv_l by lra.
        assert (102/100 * / (Z * Z) * (99/100 * (Z * Z)) <= 102/100 * / (Z * Z) * B2R q) by (apply Rmult_le_compat_l; [assert (0 < / (Z * Z)) by (apply Rinv_0_lt_compat; lra); lra|exact Bq]).
        replace (102/100 * / (Z * Z) * (99/100 * (Z * Z))) with (102/100 * (99/100)) in * by (field; nra). lra. }
      destruct (div_f one q F1 Fq ltac:(lra)) as [Fg Eg]. { rewrite R1, Rabs_pos_eq by lra. lra. }
      split; [exact Fg|]. rewrite R1 in Eg. rewrite (Rabs_pos_eq (1 / B2R q)) in Eg by lra. unfold P_StepF.err.
      set (g := B2R (a_div FA one q)) in *.
      assert (D : Rabs (1 / B2R q - 1 / (Z * Z)) <= 103/100 * u).
      { replace (1 / B2R q - 1 / (Z * Z)) with ((1 / B2R q) * (1 / (Z * Z)) * (Z * Z - B2R q)) by (field; nra).
        rewrite !Rabs_mult, (Rabs_pos_eq (1 / B2R q)), (Rabs_pos_eq (1 / (Z * Z))), Rabs_minus_sym by lra.
        assert (1 / B2R q * (1 / (Z * Z)) * Rabs (B2R q - Z * Z) <= 1 / B2R q * (1 / (Z * Z)) * (u * (Z * Z) + h)) by (apply Rmult_le_compat_l; [apply Rmult_le_pos; lra|exact Eq]).
        replace (1 / B2R q * (1 / (Z * Z)) * (u * (Z * Z) + h)) with (1 / B2R q * u + 1 / B2R q * (1 / (Z * Z) * h)) in * by (field; nra).
        assert (1 / B2R q * u <= 102/100 * u) by (apply Rmult_le_compat_r; lra).
        assert (1 / (Z * Z) * h <= 1 * h) by (apply Rmult_le_compat_r; lra).
        assert (1 / B2R q * (1 / (Z * Z) * h) <= 102/100 * h) by (apply Rmult_le_compat; try lra; apply Rmult_le_pos; lra). lra. }
      replace (g - 1 / (Z * Z)) with ((g - 1 / B2R q) + (1 / B2R q - 1 / (Z * Z))) by ring. eapply Rle_trans; [apply Rabs_triang|].
      assert (u * (1 / B2R q) <= u * (102/100)) by (apply Rmult_le_compat_l; lra). lra.
    - pose proof (f2e_mult prec emax Hp He z z Fz Fz) as E. fold Z in E. unfold NumF.frnd in E. cbn [a_mul farith] in *.
      destruct (Rlt_bool (Rabs (rnd (Z * Z))) (bpow radix2 emax)) eqn:LB.
      { destruct (f2e_fin_finite prec emax _ _ E) as [X _]. congruence. }
      assert (Big : bpow radix2 emax <= Rabs (rnd (Z * Z))) by (destruct (Rlt_bool_spec (Rabs (rnd (Z * Z))) (bpow radix2 emax)); [discriminate|assumption]).
      assert (G : a_div FA one (Bmult mode_NE z z) = B754_zero false \/ a_div FA one (Bmult mode_NE z z) = B754_zero true).
      { clear - E F1 R1. destruct (Bmult mode_NE z z) as [s|s| |s m e Hm]; cbn [f2e] in E; try (destruct (Rlt_bool (Z * Z) 0); discriminate E).
        destruct one as [s1|s1| |s1 m1 e1 H1]; try discriminate F1; cbn [B2R] in R1; [lra|]. cbn [a_div farith]. unfold Bdiv. cbn. destruct (xorb s1 s); [right|left]; reflexivity. }
      assert (G0 : is_finite (a_div FA one (Bmult mode_NE z z)) = true /\ B2R (a_div FA one (Bmult mode_NE z z)) = 0) by (destruct G as [-> | ->]; split; reflexivity).
      destruct G0 as [G1 G2]. split; [exact G1|]. unfold P_StepF.err. rewrite G2.
      pose proof (rnd_e (Z * Z)) as R. rewrite (Rabs_pos_eq (Z * Z)) in R by lra.
      assert (RB : Rabs (rnd (Z * Z)) <= 2 * (Z * Z)).
      { replace (rnd (Z * Z)) with ((rnd (Z * Z) - Z * Z) + Z * Z) by ring. eapply Rle_trans; [apply Rabs_triang|]. rewrite (Rabs_pos_eq (Z * Z)) by lra.
        assert (u * (Z * Z) <= / 2048 * (Z * Z)) by (apply Rmult_le_compat_r; lra). lra. }
      assert (UE : u * bpow radix2 emax >= 1).
      { unfold u_ro. rewrite Rmult_assoc, <- bpow_plus. apply Rle_ge. apply Rle_trans with (/ 2 * bpow radix2 1); [simpl; lra|]. apply Rmult_le_compat_l; [lra|]. apply bpow_le. red in He. lia. }
      assert (1 / (Z * Z) <= 2 * u).
      { apply (Rmult_le_reg_r (Z * Z)); [lra|]. unfold Rdiv. rewrite Rmult_assoc, Rinv_l by lra.
        assert (u * bpow radix2 emax <= u * (2 * (Z * Z))) by (apply Rmult_le_compat_l; lra). lra. }
      replace (0 - 1 / (Z * Z)) with (- (1 / (Z * Z))) by ring. rewrite Rabs_Ropp, Rabs_pos_eq by lra. lra.
  Qed.

  Lemma root_step (f : F) a c : is_finite f = true -> err 1 c 0 (B2R f) a -> 1 <= a <= 2 -> 0 <= c <= 10 ->
    is_finite (a_sqrt FA f) = true /\ err 1 (c + 16/10) 0 (B2R (a_sqrt FA f)) (sqrt a) /\ 1 <= sqrt a <= 15/10.
  Proof.
    intros Ff E Ha Hc. pose proof US as U. pose proof HS as HH. unfold P_StepF.err in *.
    replace (c * (u * 1) + 0 * h) with (c * u) in E by ring. assert (CU : c * u <= 10 * / 2048) by (apply Rmult_le_compat; lra).
    assert (P : 0 <= B2R f) by (apply Rabs_le_inv in E; lra).
    assert (Fs : is_finite (a_sqrt FA f) = true) by (apply sqrt_f; assumption). pose proof (sqrt_rel prec emax Hp He Hp1 f Fs) as R.
    pose proof (sqrt_diff (B2R f) a ltac:(lra) P) as D.
    assert (S1 : 1 <= sqrt a) by (rewrite <- sqrt_1; apply sqrt_le_1; lra).
    assert (S2 : sqrt a <= 15/10) by (rewrite <- (sqrt_square (15/10)) by lra; apply sqrt_le_1; lra).
    split; [exact Fs|]. split; [|split; [exact S1|exact S2]].
    assert (SB : sqrt (B2R f) <= 16/10).
    { replace (sqrt (B2R f)) with ((sqrt (B2R f) - sqrt a) + sqrt a) by ring. pose proof (Rle_abs (sqrt (B2R f) - sqrt a)). lra. }
    replace (B2R (a_sqrt FA f) - sqrt a) with ((B2R (a_sqrt FA f) - sqrt (B2R f)) + (sqrt (B2R f) - sqrt a)) by ring. eapply Rle_trans; [apply Rabs_triang|].
    assert (u * sqrt (B2R f) <= u * (16/10)) by (apply Rmult_le_compat_l; lra). lra.
  Qed.
  Lemma err_abs c f r B : err 1 c 0 f r -> Rabs r <= B -> 0 <= c <= 20 -> Rabs f <= B + 1.
  Proof.
    intros E HB Hc. pose proof US as U. unfold P_StepF.err in E. replace (c * (u * 1) + 0 * h) with (c * u) in E by ring.
    assert (c * u <= 20 * / 2048) by (apply Rmult_le_compat; lra).
    replace f with ((f - r) + r) by ring. eapply Rle_trans; [apply Rabs_triang|]. lra.
  Qed.

  Lemma root_far (z : F) : is_finite z = true -> 1 <= Rabs (B2R z) ->
    let w := a_sqrt FA (a_add FA one (a_div FA one (a_mul FA z z))) in let W := sqrt (1 + 1 / (B2R z * B2R z)) in
    is_finite w = true /\ err 1 6 0 (B2R w) W /\ 1 <= W <= 15/10.
  Proof.
    intros Fz Hz w W. pose proof US as U. pose proof HS as HH. destruct one_R as [F1 R1]. destruct (inv_sq z Fz Hz) as [Fg Eg].
    set (Z := B2R z) in *. assert (Z2 : 1 <= Z * Z) by (rewrite <- (Rabs_pos_eq (Z * Z)) by (apply Rle_0_sqr); rewrite Rabs_mult; nra).
    assert (I2 : 0 < 1 / (Z * Z) <= 1).
    { split; [apply Rdiv_lt_0_compat; lra|]. apply (Rmult_le_reg_r (Z * Z)); [lra|]. unfold Rdiv. rewrite Rmult_assoc, Rinv_l by lra. lra. }
    set (g := a_div FA one (a_mul FA z z)) in *.
    assert (Bg : Rabs (B2R g) <= 1 + 1) by (apply (err_abs (22/10) _ (1 / (Z * Z))); [exact Eg|rewrite Rabs_pos_eq; lra|lra]).
    assert (Fa : is_finite (a_add FA one g) = true).
    { apply add_f; [exact F1|exact Fg|]. rewrite R1. eapply Rle_trans; [apply Rabs_triang|]. rewrite Rabs_R1. lra. }
    pose proof (add_e prec emax Hp He _ _ Fa) as M. rewrite R1 in M.
    assert (Ea : err 1 (43/10) 0 (B2R (a_add FA one g)) (1 + 1 / (Z * Z))).
    { refine (err_sum u h U HH 1 0 0 (22/10) 0 2 _ _ 1 1 _ _ _ _ _ _ _ _ _ _ (err_exact u h 1 1) Eg M _ _ _); num.
      split; [reflexivity|]. rewrite Rabs_pos_eq; lra. }
    destruct (root_step _ _ _ Fa Ea ltac:(lra) ltac:(lra)) as (A & B & C). split; [exact A|]. split; [|exact C].
    apply (err_weak u h U HH 1 (43/10 + 16/10) 0); try lra. exact B.
  Qed.
  Lemma root_near (z : F) : is_finite z = true -> Rabs (B2R z) <= 1 ->
    let w := a_sqrt FA (a_add FA (a_mul FA z z) one) in let W := sqrt (B2R z * B2R z + 1) in
    is_finite w = true /\ err 1 5 0 (B2R w) W /\ 1 <= W <= 15/10.
  Proof.
    intros Fz Hz w W. pose proof US as U. pose proof HS as HH. destruct one_R as [F1 R1].
    set (Z := B2R z) in *. assert (Z2 : 0 <= Z * Z <= 1) by (rewrite <- (Rabs_pos_eq (Z * Z)) by (apply Rle_0_sqr); rewrite Rabs_mult; pose proof (Rabs_pos Z); nra).
    assert (Fq : is_finite (a_mul FA z z) = true) by (apply mul_f; try assumption; fold Z; rewrite Rabs_pos_eq; lra).
    pose proof (mul_e prec emax Hp He Hp11 _ _ Fq) as Eq. fold Z in Eq. rewrite (Rabs_pos_eq (Z * Z)) in Eq by lra.
    assert (EQ : err 1 (11/10) 0 (B2R (a_mul FA z z)) (Z * Z)).
    { unfold P_StepF.err. assert (u * (Z * Z) <= u * 1) by (apply Rmult_le_compat_l; lra). lra. }
    assert (Bq : Rabs (B2R (a_mul FA z z)) <= 1 + 1) by (apply (err_abs (11/10) _ (Z * Z)); [exact EQ|rewrite Rabs_pos_eq; lra|lra]).
    assert (Fa : is_finite (a_add FA (a_mul FA z z) one) = true).
    { apply add_f; [exact Fq|exact F1|]. rewrite R1. eapply Rle_trans; [apply Rabs_triang|]. rewrite Rabs_R1. lra. }
    pose proof (add_e prec emax Hp He _ _ Fa) as M. rewrite R1 in M.
    assert (Ea : err 1 (32/10) 0 (B2R (a_add FA (a_mul FA z z) one)) (Z * Z + 1)).
    { refine (err_sum u h U HH 1 (11/10) 0 0 0 2 _ _ _ _ 1 1 _ _ _ _ _ _ _ _ EQ (err_exact u h 1 1) M _ _ _); num.
      split; [reflexivity|]. rewrite Rabs_pos_eq; lra. }
    destruct (root_step _ _ _ Fa Ea ltac:(lra) ltac:(lra)) as (A & B & C). split; [exact A|]. split; [|exact C].
    apply (err_weak u h U HH 1 (32/10 + 16/10) 0); try lra. exact B.
  Qed.
  Lemma half_fin (y : F) : is_finite y = true -> is_finite (a_div FA y (a_ofZ FA 2)) = true /\ B2R (a_div FA y (a_ofZ FA 2)) = rnd (B2R y / 2).
  Proof.
    intros Fy. destruct (small_int prec emax Hp He Hp11 2 ltac:(lia)) as [F2 R2].
    pose proof (f2e_div prec emax Hp He y (a_ofZ FA 2) Fy F2 ltac:(rewrite R2; lra)) as E. rewrite R2 in E. unfold NumF.frnd in E.
    rewrite Rlt_bool_true in E; [exact (f2e_fin_finite prec emax _ _ E)|].
    eapply Rle_lt_trans; [|apply (abs_B2R_lt_emax prec emax y)]. unfold NumF.rnd. change (SpecFloat.fexp prec emax) with (FLT_exp emin prec).
    apply abs_round_le_generic; [typeclasses eauto|typeclasses eauto|apply generic_format_abs; exact (generic_format_B2R prec emax y)|].
    unfold Rdiv. rewrite Rabs_mult, (Rabs_pos_eq (/ 2)) by lra. pose proof (Rabs_pos (B2R y)). lra.
  Qed.
  Lemma rh_inv z : rh z = 1 / rh (- z).
  Proof. pose proof (rh_prod z). pose proof (rh_pos (- z)). apply Rmult_eq_reg_r with (rh (- z)); [|lra]. rewrite H. field. lra. Qed.

  Lemma eq_R (x y : F) : is_finite x = true -> is_finite y = true -> eqb (@Bcompare prec emax) x y = true -> B2R x = B2R y.
  Proof.
    intros A B. rewrite eqb_f, !f2e_finite by assumption. unfold eqb, ecmp. destruct (Rcompare_spec (B2R x) (B2R y)); intros E; try discriminate. assumption.
  Qed.
  Lemma std_close (y : F) : is_finite y = true -> is_finite (std_hyperbolic_ramp FA y) = true ->
    let R := rh (B2R (a_div FA y (a_ofZ FA 2))) in
    Rabs (B2R (std_hyperbolic_ramp FA y) - R) <= 9 * u * R + 2 * h.
  Proof.
    intros Fy. unfold std_hyperbolic_ramp. cbn [a_cmp farith]. destruct (half_fin y Fy) as [Fz Ez].
    destruct (small_int prec emax Hp He Hp11 0 ltac:(lia)) as [F0 R0]. destruct (small_int prec emax Hp He Hp11 (-1) ltac:(lia)) as [Fm Rm].
    destruct one_R as [F1 R1]. pose proof US as U. pose proof HS as HH.
    assert (EQ : eqb (@Bcompare prec emax) y (a_ofZ FA 0) = true -> B2R y = 0).
    { intros H. apply eq_R in H; [rewrite R0 in H; exact H|exact Fy|exact F0]. }
    destruct (eqb (@Bcompare prec emax) y (a_ofZ FA 0)).
    { intros _. cbv zeta. rewrite Ez, (EQ eq_refl), R1. replace (0 / 2) with 0 by field. rewrite (rnd_0 prec emax).
      replace (rh 0) with 1 by (unfold rh; replace (0 * 0 + 1) with 1 by ring; rewrite sqrt_1; ring). replace (1 - 1) with 0 by ring. rewrite Rabs_R0. lra. }
    clear EQ. set (z := a_div FA y (a_ofZ FA 2)) in *. clearbody z. clear Ez. rewrite ge_R, !gt_R by assumption. rewrite R0, R1, Rm.
    set (Z := B2R z) in *. pose proof (rh_pos Z) as RP. cbv zeta.
    assert (URP : 0 <= u * rh Z) by (apply Rmult_le_pos; lra).
    destruct (Rle_dec 1 Z) as [H1|H1].
    - (* 1 <= z *)
      intros Fv. assert (AZ : Rabs Z = Z) by (apply Rabs_pos_eq; lra). destruct (root_far z Fz ltac:(fold Z; lra)) as (Fw & Ew & BW). fold Z in Ew, BW.
      destruct (mult_fin prec emax Hp He _ _ Fv) as (_ & Fs & _).
      set (W := sqrt (1 + 1 / (Z * Z))) in *. set (w := a_sqrt FA (a_add FA one (a_div FA one (a_mul FA z z)))) in *.
      pose proof (add_e prec emax Hp He _ _ Fs) as M. rewrite R1 in M.
      assert (Es : err 1 (86/10) 0 (B2R (a_add FA one w)) (1 + W)).
      { refine (err_sum u h U HH 1 0 0 6 0 (25/10) _ _ 1 1 _ _ _ _ _ _ _ _ _ _ (err_exact u h 1 1) Ew M _ _ _); num.
        split; [reflexivity|]. rewrite Rabs_pos_eq; lra. }
      assert (Ev : err Z (112/10) 1 (B2R (a_mul FA z (a_add FA one w))) (Z * (1 + W))).
      { refine (err_mul u h U HH Z 0 0 (86/10) 1 (25/10) (25/10) _ _ Z Z _ _ _ _ _ _ _ _ _ _ (err_exact u h Z Z) Es _ _ _ (mul_e prec emax Hp He Hp11 _ _ Fv) _ _); num.
        - rewrite Rabs_pos_eq; lra.
        - rewrite Rabs_pos_eq by (apply Rmult_le_pos; lra). rewrite Rmult_comm. apply Rmult_le_compat_r; lra. }
      assert (ER : rh Z = Z * (1 + W)) by (unfold rh; rewrite <- (sqrt_scale Z) by lra; fold W; ring). rewrite ER.
      unfold P_StepF.err in Ev. assert (u * Z * 2 <= u * Z * (1 + W)) by (apply Rmult_le_compat_l; [apply Rmult_le_pos; lra|lra]).
      assert (0 <= u * Z) by (apply Rmult_le_pos; lra). lra.
    - destruct (Rlt_dec 0 Z) as [H2|H2]; [|destruct (Rlt_dec (-1) Z) as [H3|H3]].
      + (* 0 < z < 1 *)
        intros Fv. destruct (root_near z Fz ltac:(fold Z; rewrite Rabs_pos_eq; lra)) as (Fw & Ew & BW). fold Z in Ew, BW.
        set (W := sqrt (Z * Z + 1)) in *. pose proof (add_e prec emax Hp He _ _ Fv) as M. fold Z in M.
        assert (Ev : err 1 (76/10) 0 (B2R (a_add FA z (a_sqrt FA (a_add FA (a_mul FA z z) one)))) (Z + W)).
        { refine (err_sum u h U HH 1 0 0 5 0 (25/10) _ _ Z Z _ _ _ _ _ _ _ _ _ _ (err_exact u h 1 Z) Ew M _ _ _); num.
          split; [reflexivity|]. rewrite Rabs_pos_eq; lra. }
        change (Z + W) with (rh Z) in Ev. unfold P_StepF.err in Ev. pose proof (rh_ge1 Z ltac:(lra)) as G.
        assert (u * 1 <= u * rh Z) by (apply Rmult_le_compat_l; lra). lra.
      + (* -1 < z <= 0 *)
        assert (AZ : Rabs Z <= 1) by (apply Rabs_le; lra). destruct (root_near z Fz AZ) as (Fw & Ew & BW). fold Z in Ew, BW.
        set (W := sqrt (Z * Z + 1)) in *. set (w := a_sqrt FA (a_add FA (a_mul FA z z) one)) in *.
        assert (Bw : Rabs (B2R w) <= 15/10 + 1) by (apply (err_abs 5 _ W); [exact Ew|rewrite Rabs_pos_eq; lra|lra]).
        assert (Fd : is_finite (a_sub FA w z) = true).
        { apply sub_f; [exact Fw|exact Fz|]. fold Z. unfold Rminus. eapply Rle_trans; [apply Rabs_triang|]. rewrite Rabs_Ropp. lra. }
        pose proof (sub_e prec emax Hp He _ _ Fd) as M. fold Z in M.
        assert (Ed : err 1 (76/10) 0 (B2R (a_sub FA w z)) (W + - Z)).
        { refine (err_sum u h U HH 1 5 0 0 0 (25/10) _ _ _ _ (- Z) (- Z) _ _ _ _ _ _ _ _ Ew (err_exact u h 1 (- Z)) M _ _ _); num.
          split; [reflexivity|]. rewrite Rabs_pos_eq; lra. }
        set (d := a_sub FA w z) in *. assert (ED : W + - Z = rh (- Z)) by (unfold rh, W; replace (- Z * - Z) with (Z * Z) by ring; ring).
        assert (GD : 1 <= rh (- Z)) by (apply rh_ge1; lra). rewrite ED in Ed. rewrite (rh_inv Z) in *. set (D := rh (- Z)) in *. clear ED.
        unfold P_StepF.err in Ed. replace (76 / 10 * (u * 1) + 0 * h) with (76/10 * u) in Ed by ring.
        assert (Bd : 99/100 * D <= B2R d) by (apply Rabs_le_inv in Ed; lra).
        assert (ID : 0 < 1 / D <= 1) by (split; [apply Rdiv_lt_0_compat; lra|apply (Rmult_le_reg_r D); [lra|]; unfold Rdiv; rewrite Rmult_assoc, Rinv_l by lra; lra]).
        assert (Id : 0 < 1 / B2R d <= 102/100 * (1 / D)).
        { split; [apply Rdiv_lt_0_compat; lra|]. apply (Rmult_le_reg_r (B2R d)); [lra|]. unfold Rdiv. rewrite !Rmult_1_l, Rinv_l by lra.
          assert (102/100 * / D * (99/100 * D) <= 102/100 * / D * B2R d) by (apply Rmult_le_compat_l; [assert (0 < / D) by (apply Rinv_0_lt_compat; lra); lra|exact Bd]).
          replace (102/100 * / D * (99/100 * D)) with (102/100 * (99/100)) in * by (field; lra). lra. }
        intros _. destruct (div_f one d F1 Fd ltac:(lra)) as [_ Eg]. { rewrite R1, Rabs_pos_eq by lra. lra. }
        rewrite R1 in Eg. rewrite (Rabs_pos_eq (1 / B2R d)) in Eg by lra. set (v := B2R (a_div FA one d)) in *.
        assert (DD : Rabs (1 / B2R d - 1 / D) <= 78/10 * (u * (1 / D))).
        { replace (1 / B2R d - 1 / D) with ((1 / B2R d) * (1 / D) * (D - B2R d)) by (field; lra).
          rewrite !Rabs_mult, (Rabs_pos_eq (1 / B2R d)), (Rabs_pos_eq (1 / D)), Rabs_minus_sym by lra.
          assert (1 / B2R d * (1 / D) * Rabs (B2R d - D) <= 102/100 * (1 / D) * (76/10 * u)).
          { apply Rmult_le_compat; [apply Rmult_le_pos; lra|apply Rabs_pos| |exact Ed].
            replace (102/100 * (1 / D)) with (102/100 * (1 / D)) by ring. assert (1 / B2R d * (1 / D) <= 102/100 * (1 / D) * 1) by (apply Rmult_le_compat; lra). lra. }
          assert (0 <= u * (1 / D)) by (apply Rmult_le_pos; lra). lra. }
        replace (v - 1 / D) with ((v - 1 / B2R d) + (1 / B2R d - 1 / D)) by ring. eapply Rle_trans; [apply Rabs_triang|].
        assert (u * (1 / B2R d) <= u * (102/100 * (1 / D))) by (apply Rmult_le_compat_l; lra). lra.
      + (* z <= -1 *)
        assert (AZ : Rabs Z = - Z) by (apply Rabs_left1; lra). destruct (root_far z Fz ltac:(fold Z; lra)) as (Fw & Ew & BW). fold Z in Ew, BW.
        set (W := sqrt (1 + 1 / (Z * Z))) in *. set (w := a_sqrt FA (a_add FA one (a_div FA one (a_mul FA z z)))) in *.
        assert (Bw : Rabs (B2R w) <= 15/10 + 1) by (apply (err_abs 6 _ W); [exact Ew|rewrite Rabs_pos_eq; lra|lra]).
        assert (Fs : is_finite (a_add FA w one) = true).
        { apply add_f; [exact Fw|exact F1|]. rewrite R1. eapply Rle_trans; [apply Rabs_triang|]. rewrite Rabs_R1. lra. }
        pose proof (add_e prec emax Hp He _ _ Fs) as M. rewrite R1 in M.
        assert (Es : err 1 (86/10) 0 (B2R (a_add FA w one)) (W + 1)).
        { refine (err_sum u h U HH 1 6 0 0 0 (25/10) _ _ _ _ 1 1 _ _ _ _ _ _ _ _ Ew (err_exact u h 1 1) M _ _ _); num.
          split; [reflexivity|]. rewrite Rabs_pos_eq; lra. }
        set (s := a_add FA w one) in *. set (V := W + 1) in *. assert (BV : 2 <= V <= 25/10) by (unfold V; lra).
        assert (IN : 0 < (-1) / Z <= 1).
        { replace ((-1) / Z) with (1 / - Z) by (field; lra). split; [apply Rdiv_lt_0_compat; lra|]. apply (Rmult_le_reg_r (- Z)); [lra|]. unfold Rdiv. rewrite Rmult_assoc, Rinv_l by lra. lra. }
        destruct (div_f (a_ofZ FA (-1)) z Fm Fz ltac:(fold Z; lra)) as [Fn En]. { fold Z. rewrite Rm. rewrite Rabs_pos_eq; lra. }
        fold Z in En. rewrite Rm in En. rewrite (Rabs_pos_eq ((-1) / Z)) in En by lra. set (n := a_div FA (a_ofZ FA (-1)) z) in *. set (N := (-1) / Z) in *.
        unfold P_StepF.err in Es. replace (86 / 10 * (u * 1) + 0 * h) with (86/10 * u) in Es by ring.
        assert (Bs : 199/100 <= B2R s) by (apply Rabs_le_inv in Es; lra).
        assert (Is : 0 < / B2R s <= 51/100).
        { split; [apply Rinv_0_lt_compat; lra|]. apply (Rmult_le_reg_r (B2R s)); [lra|]. rewrite Rinv_l by lra. lra. }
        assert (IV : 0 < / V <= / 2) by (split; [apply Rinv_0_lt_compat; lra|apply Rinv_le; lra]).
        intros Fv. destruct (div_fin prec emax Hp He _ _ Fs ltac:(lra) Fv) as (_ & EV). rewrite EV. pose proof (rnd_e (B2R n / B2R s)) as RV.
        set (v := rnd (B2R n / B2R s)) in *.
        assert (ER : rh Z = N * / V).
        { rewrite (rh_inv Z). unfold rh, N, V. rewrite <- (sqrt_scale (- Z)) by lra. replace (- Z * - Z) with (Z * Z) by ring. fold W. field. repeat split; try lra.
          replace (- Z + - Z * W) with (- Z * (1 + W)) by ring. apply Rgt_not_eq. apply Rmult_lt_0_compat; lra. }
        rewrite ER in *. set (R := N * / V) in *.
        assert (NR : N <= 25/10 * R).
        { unfold R. assert (N * (V * / V) <= N * (25/10 * / V)) by (apply Rmult_le_compat_l; [lra|]; apply Rmult_le_compat_r; lra). rewrite Rinv_r in H by lra. lra. }
        assert (UN : u * N <= 25/10 * (u * R)) by (assert (u * N <= u * (25/10 * R)) by (apply Rmult_le_compat_l; lra); lra).
        assert (Q : Rabs (B2R n / B2R s - R) <= 51/100 * (u * N + h) + 22/10 * (u * N)).
        { replace (B2R n / B2R s - R) with ((B2R n - N) * / B2R s + N * (/ B2R s * / V) * (V - B2R s)) by (unfold R; field; lra).
          eapply Rle_trans; [apply Rabs_triang|]. rewrite !Rabs_mult, (Rabs_pos_eq (/ B2R s)), (Rabs_pos_eq N), (Rabs_pos_eq (/ V)), (Rabs_minus_sym V) by lra.
          assert (Rabs (B2R n - N) * / B2R s <= (u * N + h) * (51/100)) by (apply Rmult_le_compat; try lra; apply Rabs_pos).
          assert (/ B2R s * / V <= 51/100 * / 2) by (apply Rmult_le_compat; lra).
          assert (N * (/ B2R s * / V) <= N * (51/100 * / 2)) by (apply Rmult_le_compat_l; lra).
          assert (N * (/ B2R s * / V) * Rabs (B2R s - V) <= N * (51/100 * / 2) * (86/10 * u)) by (apply Rmult_le_compat; try lra; [apply Rmult_le_pos; [lra|apply Rmult_le_pos; lra]|apply Rabs_pos]).
          assert (0 <= u * N) by (apply Rmult_le_pos; lra). lra. }
        assert (QA : Rabs (B2R n / B2R s) <= R + (51/100 * (u * N + h) + 22/10 * (u * N))).
        { replace (B2R n / B2R s) with ((B2R n / B2R s - R) + R) by ring. eapply Rle_trans; [apply Rabs_triang|]. rewrite (Rabs_pos_eq R) by lra. lra. }
        replace (v - R) with ((v - B2R n / B2R s) + (B2R n / B2R s - R)) by ring. eapply Rle_trans; [apply Rabs_triang|].
        assert (u * Rabs (B2R n / B2R s) <= u * (R + (51/100 * (u * N + h) + 22/10 * (u * N)))) by (apply Rmult_le_compat_l; lra).
        assert (0 <= u * N) by (apply Rmult_le_pos; lra).
        assert (u * (51/100 * (u * N + h) + 22/10 * (u * N)) <= / 2048 * (51/100 * (u * N + h) + 22/10 * (u * N))) by (apply Rmult_le_compat_r; lra). lra.
  Qed.

  Lemma hyperbolic_bound (x a : F) :
    is_finite x = true -> is_finite a = true -> 0 < B2R a ->
    is_finite (a_div FA x a) = true -> is_finite (hyperbolic_ramp FA x a) = true ->
    Rabs (B2R (hyperbolic_ramp FA x a) - hyp_ramp (B2R a) (B2R x)) <= 13 * u * hyp_ramp (B2R a) (B2R x) + (3 * B2R a + 1) * h.
  Proof.
    intros Fx Fa Pa Fy. unfold hyperbolic_ramp, hyp_ramp. cbn [a_cmp farith]. destruct (small_int prec emax Hp He Hp11 0 ltac:(lia)) as [F0 R0].
    pose proof US as U. pose proof HS as HH.
    destruct (eqb (@Bcompare prec emax) a (a_ofZ FA 0)) eqn:E.
    { apply eq_R in E; try assumption. lra. } clear E.
    rewrite lt_Rb by assumption. destruct (Rlt_dec (B2R a) (B2R (a_ofZ FA 0))) as [L|_]; [lra|]. intros Fv.
    destruct (mult_fin prec emax Hp He _ _ Fv) as (_ & Fs & _). pose proof (mul_e prec emax Hp He Hp11 _ _ Fv) as EV.
    destruct (div_fin prec emax Hp He _ _ Fa ltac:(lra) Fy) as (_ & EY). pose proof (rnd_e (B2R x / B2R a)) as RY. rewrite <- EY in RY.
    destruct (half_fin (a_div FA x a) Fy) as [Fz EZ]. pose proof (rnd_e (B2R (a_div FA x a) / 2)) as RZ. rewrite <- EZ in RZ.
    pose proof (std_close (a_div FA x a) Fy Fs) as SC. cbv zeta in SC. rewrite <- (hyp_form (B2R x) (B2R a) Pa).
    set (A := B2R a) in *. set (Y := B2R (a_div FA x a)) in *. set (Z := B2R (a_div FA (a_div FA x a) (a_ofZ FA 2))) in *.
    set (s := B2R (std_hyperbolic_ramp FA (a_div FA x a))) in *. set (q := B2R x / A) in *.
    set (v := B2R (a_mul FA a (std_hyperbolic_ramp FA (a_div FA x a)))) in *. clearbody v s Z Y q.
    assert (PT : Rabs (Z - q / 2) <= 201/100 * u * Rabs (q / 2) + 2 * h).
    { assert (AQ : Rabs (q / 2) = Rabs q / 2) by (unfold Rdiv; rewrite Rabs_mult, (Rabs_pos_eq (/ 2)) by lra; ring).
      assert (AY : Rabs (Y / 2) = Rabs Y / 2) by (unfold Rdiv; rewrite Rabs_mult, (Rabs_pos_eq (/ 2)) by lra; ring).
      rewrite AQ. rewrite AY in RZ. assert (Rabs Y <= Rabs q + (u * Rabs q + h)).
      { replace Y with ((Y - q) + q) by ring. eapply Rle_trans; [apply Rabs_triang|]. lra. }
      replace (Z - q / 2) with ((Z - Y / 2) + (Y - q) * / 2) by field. eapply Rle_trans; [apply Rabs_triang|].
      rewrite (Rabs_mult (Y - q)), (Rabs_pos_eq (/ 2)) by lra. pose proof (Rabs_pos q).
      assert (0 <= u * Rabs q) by (apply Rmult_le_pos; lra).
      assert (u * (Rabs Y / 2) <= u * ((Rabs q + (u * Rabs q + h)) / 2)) by (apply Rmult_le_compat_l; lra).
      assert (u * (u * Rabs q + h) <= / 2048 * (u * Rabs q + h)) by (apply Rmult_le_compat_r; lra). lra. }
    pose proof (rh_perturb (201/100 * u) (2 * h) (q / 2) Z ltac:(lra) ltac:(lra) ltac:(lra) PT) as RP.
    pose proof (rh_pos (q / 2)) as P0. set (r := rh (q / 2)) in *. set (rz := rh Z) in *. clearbody r rz.
    assert (UR : 0 <= u * r) by (apply Rmult_le_pos; lra).
    assert (RP' : Rabs (rz - r) <= 21/10 * (u * r)).
    { eapply Rle_trans; [exact RP|]. assert (H : (201/100 * u + 2 * (2 * h)) * r <= (202/100 * u) * r) by (apply Rmult_le_compat_r; lra). lra. }
    assert (BZ : rz <= 101/100 * r).
    { assert (u * r <= / 2048 * r) by (apply Rmult_le_compat_r; lra). apply Rabs_le_inv in RP'. lra. }
    assert (ES : Rabs (s - r) <= 113/10 * (u * r) + 2 * h).
    { replace (s - r) with ((s - rz) + (rz - r)) by ring. eapply Rle_trans; [apply Rabs_triang|].
      assert (u * rz <= u * (101/100 * r)) by (apply Rmult_le_compat_l; lra). lra. }
    assert (BS : Rabs s <= 101/100 * r + 2 * h).
    { replace s with ((s - r) + r) by ring. eapply Rle_trans; [apply Rabs_triang|]. rewrite (Rabs_pos_eq r) by lra.
      assert (u * r <= / 2048 * r) by (apply Rmult_le_compat_r; lra). lra. }
    replace (v - A * r) with ((v - A * s) + A * (s - r)) by ring. eapply Rle_trans; [apply Rabs_triang|].
    rewrite (Rabs_mult A (s - r)), (Rabs_pos_eq A) by lra. rewrite Rabs_mult, (Rabs_pos_eq A) in EV by lra.
    assert (A * Rabs (s - r) <= A * (113/10 * (u * r) + 2 * h)) by (apply Rmult_le_compat_l; lra).
    assert (A * Rabs s <= A * (101/100 * r + 2 * h)) by (apply Rmult_le_compat_l; lra).
    assert (u * (A * Rabs s) <= u * (A * (101/100 * r + 2 * h))) by (apply Rmult_le_compat_l; lra).
    assert (0 <= A * h) by (apply Rmult_le_pos; lra). assert (u * (A * h) <= / 2048 * (A * h)) by (apply Rmult_le_compat_r; lra).
    assert (0 <= A * (u * r)) by (apply Rmult_le_pos; lra). lra.
  Qed.
End RampF.

(** the quotient x / a overflows for a tiny positive [a]: the ramp is infinite although the exact value is about x *)
Lemma ramp_overflow : exists x a : f64,
  is_finite x = true /\ is_finite a = true /\ 0 < B2R a < 1 /\ 0 < B2R x /\
  hyp_ramp (B2R a) (B2R x) <= B2R x + 1 /\ hyperbolic_ramp f64_arith x a = B754_infinity false.
Proof.
  set (x := f64_ofZ (2 ^ 600)). set (a := a_div f64_arith (f64_ofZ 1) (f64_ofZ (2 ^ 600))).
  assert (Ex : 0 < B2R x).
  { unfold x. rewrite (f64_R (2 ^ 600) (S754_finite false 4503599627370496 548)) by (vm_compute; reflexivity). apply F2R_gt_0. reflexivity. }
  assert (Ea : 0 < B2R a < 1).
  { rewrite <- SF2R_B2SF. replace (B2SF a) with (S754_finite false 4503599627370496 (-652)) by (vm_compute; reflexivity).
    split; [apply F2R_gt_0; reflexivity|]. unfold SF2R, F2R. simpl Fnum. simpl Fexp. simpl cond_Zopp.
    change 4503599627370496%Z with (2 ^ 52)%Z. rewrite (IZR_Zpower radix2) by lia. rewrite <- bpow_plus. apply (bpow_lt radix2 _ 0). lia. }
  exists x, a. split; [vm_compute; reflexivity|]. split; [vm_compute; reflexivity|]. split; [exact Ea|]. split; [exact Ex|]. split.
  - unfold hyp_ramp. set (X := B2R x) in *. set (A := B2R a) in *.
    assert (sqrt (X ^ 2 + 4 * A ^ 2) <= X + 2 * A).
    { rewrite <- (sqrt_pow2 (X + 2 * A)) by lra. apply sqrt_le_1_alt. nra. }
    lra.
  - assert (E : B2SF (hyperbolic_ramp f64_arith x a) = S754_infinity false) by (vm_compute; reflexivity).
    destruct (hyperbolic_ramp f64_arith x a) as [[]|[]| |[] m e Hm]; try discriminate E. reflexivity.
Qed.
