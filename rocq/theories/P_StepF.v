(** Rounding errors of linearstep, the smoothsteps, the variograms and the trapezoidal pulse. *)
From Coq Require Import ZArith Reals List Bool Lia Lra Psatz SpecFloat.
From Flocq Require Import Core BinarySingleNaN Plus_error Relative.
From Verif Require Import CSem CSemP Num NumP NumF M_Elem S_Signal S_Line S_StepF P_Kbn P_SumF P_LineF.
Import ListNotations.
Open Scope R_scope.

(** ** errors as multiples of u * D and of h *)
Section Err.
  Context (u h : R) (Hu : 0 < u <= / 2048) (Hh : 0 <= h <= u / 1000).
  Definition err (D c k f r : R) : Prop := Rabs (f - r) <= c * (u * D) + k * h.
  Definition U1 := 1 + / 2048.

  Lemma err_exact D f : err D 0 0 f f.
  Proof. unfold err. replace (f - f) with 0 by ring. rewrite Rabs_R0. lra. Qed.
  Lemma err_weak D c k c' k' f r : 0 <= D -> c <= c' -> k <= k' -> err D c k f r -> err D c' k' f r.
  Proof.
    unfold err. intros HD Hc Hk H. eapply Rle_trans; [exact H|]. apply Rplus_le_compat; apply Rmult_le_compat_r; try assumption; try lra.
    apply Rmult_le_pos; lra.
  Qed.
  Lemma err_drop c k c' f r : 0 <= k -> c + k / 1000 <= c' -> err 1 c k f r -> err 1 c' 0 f r.
  Proof. unfold err. intros Hk Hc H. eapply Rle_trans; [exact H|]. assert (k * h <= k * (u / 1000)) by (apply Rmult_le_compat_l; lra). nra. Qed.
  Lemma err_sum D c1 k1 c2 k2 C c' k' f r g s p q : 0 <= D -> 0 <= c1 -> 0 <= c2 -> 0 <= k1 -> 0 <= k2 -> 0 <= C ->
    err D c1 k1 f r -> err D c2 k2 g s -> Rabs (p - q) <= u * Rabs q ->
    (q = f + g /\ Rabs (r + s) <= C * D) ->
    U1 * (c1 + c2) + C <= c' -> U1 * (k1 + k2) <= k' -> err D c' k' p (r + s).
  Proof.
    unfold err, U1. intros HD C1 C2 K1 K2 HC E1 E2 Ep [-> B] Hc Hk.
    assert (X : Rabs (f + g - (r + s)) <= (c1 + c2) * (u * D) + (k1 + k2) * h).
    { replace (f + g - (r + s)) with ((f - r) + (g - s)) by ring. eapply Rle_trans; [apply Rabs_triang|]. lra. }
    assert (Y : Rabs (f + g) <= C * D + Rabs (f + g - (r + s))).
    { replace (f + g) with ((f + g - (r + s)) + (r + s)) at 1 by ring. eapply Rle_trans; [apply Rabs_triang|]. lra. }
    replace (p - (r + s)) with ((p - (f + g)) + (f + g - (r + s))) by ring. eapply Rle_trans; [apply Rabs_triang|].
    set (e := Rabs (f + g - (r + s))) in *. assert (0 <= e) by apply Rabs_pos.
    assert (u * Rabs (f + g) <= u * (C * D + e)) by (apply Rmult_le_compat_l; lra).
    assert (UD : 0 <= u * D) by (apply Rmult_le_pos; lra).
    assert (u * e <= / 2048 * e) by (apply Rmult_le_compat_r; lra).
    assert ((1 + / 2048) * e <= (1 + / 2048) * ((c1 + c2) * (u * D) + (k1 + k2) * h)) by (apply Rmult_le_compat_l; lra).
    assert (((1 + / 2048) * (c1 + c2) + C) * (u * D) <= c' * (u * D)) by (apply Rmult_le_compat_r; assumption).
    assert ((1 + / 2048) * (k1 + k2) * h <= k' * h) by (apply Rmult_le_compat_r; lra).
    lra.
  Qed.
  Lemma err_opp D c k f r : err D c k f r -> err D c k (- f) (- r).
  Proof. unfold err. replace (- f - - r) with (- (f - r)) by ring. rewrite Rabs_Ropp. auto. Qed.
  Lemma err_mul D c1 k1 c2 A B C c' k' f r g s p : 0 <= D -> 0 <= c1 -> 0 <= c2 -> 0 <= k1 -> 0 <= A -> 0 <= B -> 0 <= C ->
    err D c1 k1 f r -> err 1 c2 0 g s -> Rabs r <= A * D -> Rabs s <= B -> Rabs (r * s) <= C * D ->
    Rabs (p - f * g) <= u * Rabs (f * g) + h ->
    U1 * (A * c2 + B * c1 + c1 * c2 / 2048) + C <= c' -> U1 * (B * k1 + k1 * c2 / 2048) + 1 <= k' -> err D c' k' p (r * s).
  Proof.
    unfold err, U1. intros HD C1 C2 K1 HA HB HC E1 E2 BA BB BC Ep Hc Hk.
    replace (c2 * (u * 1) + 0 * h) with (c2 * u) in E2 by ring.
    assert (UD : 0 <= u * D) by (apply Rmult_le_pos; lra).
    set (e1 := c1 * (u * D) + k1 * h) in *.
    assert (P1 : 0 <= e1) by (unfold e1; apply Rplus_le_le_0_compat; apply Rmult_le_pos; lra).
    assert (P2 : 0 <= c2 * u) by (apply Rmult_le_pos; lra).
    assert (X : Rabs (f * g - r * s) <= (A * D) * (c2 * u) + e1 * B + e1 * (c2 * u)).
    { replace (f * g - r * s) with (r * (g - s) + (f - r) * s + (f - r) * (g - s)) by ring.
      eapply Rle_trans; [apply Rabs_triang|]. apply Rplus_le_compat; [eapply Rle_trans; [apply Rabs_triang|]; apply Rplus_le_compat|];
        rewrite Rabs_mult; apply Rmult_le_compat; (apply Rabs_pos || assumption). }
    assert (Y : Rabs (f * g) <= C * D + Rabs (f * g - r * s)).
    { replace (f * g) with ((f * g - r * s) + r * s) at 1 by ring. eapply Rle_trans; [apply Rabs_triang|]. lra. }
    replace (p - r * s) with ((p - f * g) + (f * g - r * s)) by ring. eapply Rle_trans; [apply Rabs_triang|].
    set (e := Rabs (f * g - r * s)) in *. assert (0 <= e) by apply Rabs_pos.
    assert (u * Rabs (f * g) <= u * (C * D + e)) by (apply Rmult_le_compat_l; lra).
    assert (u * e <= / 2048 * e) by (apply Rmult_le_compat_r; lra).
    assert (S1 : c2 * u <= c2 / 2048) by (unfold Rdiv; apply Rmult_le_compat_l; lra).
    assert (S2 : e1 * (c2 * u) <= e1 * (c2 / 2048)) by (apply Rmult_le_compat_l; assumption).
    set (G := A * c2 + B * c1 + c1 * c2 / 2048) in *. set (K := B * k1 + k1 * c2 / 2048) in *.
    assert (Z : e <= G * (u * D) + K * h).
    { eapply Rle_trans; [exact X|]. eapply Rle_trans; [apply Rplus_le_compat_l; exact S2|]. unfold G, K, e1. right. field. }
    assert ((1 + / 2048) * e <= (1 + / 2048) * (G * (u * D) + K * h)) by (apply Rmult_le_compat_l; lra).
    assert (((1 + / 2048) * G + C) * (u * D) <= c' * (u * D)) by (apply Rmult_le_compat_r; assumption).
    assert (((1 + / 2048) * K + 1) * h <= k' * h) by (apply Rmult_le_compat_r; lra).
    lra.
  Qed.
  (** the last sum: the error of a sum is relative to the sum *)
  Lemma err_last D c1 k1 c' k' y0 p P r : 0 <= D -> 0 <= c1 -> 0 <= k1 -> err D c1 k1 p P -> Rabs (r - (y0 + p)) <= u * Rabs (y0 + p) ->
    U1 * c1 <= c' -> U1 * k1 <= k' -> Rabs (r - (y0 + P)) <= u * Rabs (y0 + P) + c' * (u * D) + k' * h.
  Proof.
    unfold err, U1. intros HD C1 K1 E Er Hc Hk. set (e := Rabs (p - P)) in *. assert (0 <= e) by apply Rabs_pos.
    assert (Y : Rabs (y0 + p) <= Rabs (y0 + P) + e).
    { replace (y0 + p) with ((y0 + P) + (p - P)) by ring. apply Rabs_triang. }
    replace (r - (y0 + P)) with ((r - (y0 + p)) + (p - P)) by ring. eapply Rle_trans; [apply Rabs_triang|]. fold e.
    assert (UD : 0 <= u * D) by (apply Rmult_le_pos; lra).
    assert (u * Rabs (y0 + p) <= u * (Rabs (y0 + P) + e)) by (apply Rmult_le_compat_l; lra).
    assert (u * e <= / 2048 * e) by (apply Rmult_le_compat_r; lra).
    assert ((1 + / 2048) * e <= (1 + / 2048) * (c1 * (u * D) + k1 * h)) by (apply Rmult_le_compat_l; lra).
    assert ((1 + / 2048) * c1 * (u * D) <= c' * (u * D)) by (apply Rmult_le_compat_r; assumption).
    assert ((1 + / 2048) * k1 * h <= k' * h) by (apply Rmult_le_compat_r; lra).
    lra.
  Qed.
  (** a quotient of two close numbers, at most 1 *)
  Lemma err_quot N D n d q cn cd c' : 0 <= N <= D -> 0 < D -> 0 <= cn -> 0 <= cd -> cn + cd <= 4 ->
    Rabs (n - N) <= cn * u * N -> Rabs (d - D) <= cd * u * D -> Rabs (q - n / d) <= u * Rabs (n / d) + h ->
    (101/100) * (cn + cd) + 102/100 <= c' -> err 1 c' 0 q (N / D).
  Proof.
    unfold err. intros HN HD Cn Cd Hc En Ed Eq Hc'.
    assert (B1 : Rabs (n - N) <= cn / 2048 * N) by (eapply Rle_trans; [exact En|]; apply Rmult_le_compat_r; [lra|]; unfold Rdiv; apply Rmult_le_compat_l; lra).
    assert (B2 : Rabs (d - D) <= cd / 2048 * D) by (eapply Rle_trans; [exact Ed|]; apply Rmult_le_compat_r; [lra|]; unfold Rdiv; apply Rmult_le_compat_l; lra).
    assert (cd / 2048 * D <= 4 / 2048 * D) by (apply Rmult_le_compat_r; lra).
    apply Rabs_le_inv in B2. assert (Dp : 2044 / 2048 * D <= d) by lra. assert (0 < d) by lra.
    assert (T : 0 <= N / D <= 1) by (split; [apply Rmult_le_pos; [lra|left; apply Rinv_0_lt_compat; lra]|apply (Rmult_le_reg_r D); [lra|]; unfold Rdiv; rewrite Rmult_assoc, Rinv_l by lra; lra]).
    assert (X : Rabs (n / d - N / D) <= (cn + cd) * (2048 / 2044) * u).
    { replace (n / d - N / D) with (((n - N) - (N / D) * (d - D)) * / d) by (field; lra).
      rewrite Rabs_mult, (Rabs_pos_eq (/ d)) by (left; apply Rinv_0_lt_compat; assumption).
      apply (Rmult_le_reg_r d); [assumption|]. rewrite Rmult_assoc, Rinv_l, Rmult_1_r by lra.
      assert (Rabs (n - N - N / D * (d - D)) <= (cn + cd) * u * D).
      { eapply Rle_trans; [apply Rabs_triang|]. rewrite Rabs_Ropp, Rabs_mult, (Rabs_pos_eq (N / D)) by lra.
        assert (N / D * Rabs (d - D) <= 1 * (cd * u * D)) by (apply Rmult_le_compat; try lra; apply Rabs_pos).
        assert (cn * u * N <= cn * u * D) by (apply Rmult_le_compat_l; [apply Rmult_le_pos; lra|lra]). lra. }
      eapply Rle_trans; [eassumption|]. assert (P : 0 <= (cn + cd) * u) by (apply Rmult_le_pos; lra).
      assert ((cn + cd) * u * D <= (cn + cd) * u * (2048 / 2044 * d)) by (apply Rmult_le_compat_l; lra). lra. }
    assert (P : 0 <= (cn + cd) * u) by (apply Rmult_le_pos; lra). assert ((cn + cd) * u <= 4 * u) by (apply Rmult_le_compat_r; lra).
    assert (Y : Rabs (n / d) <= 1 + 1/100).
    { replace (n / d) with ((n / d - N / D) + N / D) by ring. eapply Rle_trans; [apply Rabs_triang|]. rewrite (Rabs_pos_eq (N / D)) by lra. lra. }
    replace (q - N / D) with ((q - n / d) + (n / d - N / D)) by ring. eapply Rle_trans; [apply Rabs_triang|].
    assert (u * Rabs (n / d) <= u * (1 + 1 / 100)) by (apply Rmult_le_compat_l; lra).
    assert ((101 / 100 * (cn + cd) + 102 / 100) * u <= c' * u) by (apply Rmult_le_compat_r; lra). lra.
  Qed.
End Err.

Section StepF.
  Context (prec emax : Z).
  Context (Hp : Prec_gt_0 prec) (He : Prec_lt_emax prec emax).
  Context (Hp11 : (11 <= prec)%Z).
  Notation F := (binary_float prec emax).
  Notation FA := (farith prec emax Hp He).
  Notation rnd := (rnd prec emax).
  Notation emin := (3 - emax - prec)%Z.
  Notation u := (u_ro radix2 prec).
  Notation h := (half_eta prec emax).
  Let Hp1 : (1 < prec)%Z. Proof. lia. Qed.

  Lemma u_small : 0 < u <= / 2048.
  Proof.
    unfold u_ro. split; [apply Rmult_lt_0_compat; [lra|apply bpow_gt_0]|].
    replace (/ 2048) with (/ 2 * bpow radix2 (-10)) by (simpl; lra). apply Rmult_le_compat_l; [lra|]. apply bpow_le. lia.
  Qed.
  Lemma h_small : 0 <= h <= u / 1000.
  Proof.
    unfold half_eta, u_ro. split; [apply Rmult_le_pos; [lra|apply bpow_ge_0]|].
    replace (3 - emax - prec)%Z with ((- prec + 1) + (2 - emax))%Z by ring. rewrite bpow_plus.
    assert (bpow radix2 (2 - emax) <= / 1000).
    { apply Rle_trans with (bpow radix2 (-10)); [apply bpow_le; unfold Prec_lt_emax in He; lia|simpl; lra]. }
    assert (bpow radix2 (- prec + 1) * bpow radix2 (2 - emax) <= bpow radix2 (- prec + 1) * / 1000) by (apply Rmult_le_compat_l; [apply bpow_ge_0|assumption]).
    lra.
  Qed.
  Lemma rnd_exact x : generic_format radix2 (FLT_exp emin prec) x -> rnd x = x.
  Proof. intros G. unfold NumF.rnd. change (SpecFloat.fexp prec emax) with (FLT_exp emin prec). apply round_generic; [typeclasses eauto|exact G]. Qed.
  Lemma small_int z : (Z.abs z <= 1024)%Z -> is_finite (a_ofZ FA z) = true /\ B2R (a_ofZ FA z) = IZR z.
  Proof.
    intros Hz. pose proof (f2e_ofZ prec emax Hp He z) as Q. unfold NumF.frnd in Q.
    assert (G : rnd (IZR z) = IZR z).
    { apply rnd_exact. replace (IZR z) with (F2R (Float radix2 z 0)) by (unfold F2R; simpl; ring).
      apply generic_format_FLT. exists (Float radix2 z 0); [reflexivity| |cbn [Fexp]; red in He; red in Hp; lia].
      cbn [Fnum]. apply Z.le_lt_trans with (1 := Hz). apply Z.lt_le_trans with (radix2 ^ 11)%Z; [reflexivity|]. apply (Zpower_le radix2). lia. }
    rewrite G in Q. rewrite Rlt_bool_true in Q; [exact (f2e_fin_finite prec emax _ _ Q)|].
    rewrite <- abs_IZR. apply Rle_lt_trans with (IZR 1024); [apply IZR_le; exact Hz|]. change (IZR 1024) with (bpow radix2 10). apply bpow_lt. unfold Prec_lt_emax in He. lia.
  Qed.

  Lemma rb (P : Prop) (d : {P} + {~ P}) b : (b = true <-> P) -> b = if d then true else false.
  Proof. intros H. destruct d as [p|n]; [apply H; exact p|]. destruct b; [exfalso; apply n; apply H; reflexivity|reflexivity]. Qed.
  Lemma le_R (x y : F) : is_finite x = true -> is_finite y = true -> leb (@Bcompare prec emax) x y = if Rle_dec (B2R x) (B2R y) then true else false.
  Proof. intros A B. apply rb. rewrite leb_f, !f2e_finite by assumption. apply leb_Fin. Qed.
  Lemma ge_R (x y : F) : is_finite x = true -> is_finite y = true -> geb (@Bcompare prec emax) x y = if Rle_dec (B2R y) (B2R x) then true else false.
  Proof. intros A B. rewrite (geb_leb _ (Bcompare_laws prec emax)). apply le_R; assumption. Qed.
  Lemma lt_Rb (x y : F) : is_finite x = true -> is_finite y = true -> ltb (@Bcompare prec emax) x y = if Rlt_dec (B2R x) (B2R y) then true else false.
  Proof. intros A B. apply rb. rewrite ltb_f, !f2e_finite by assumption. apply ltb_Fin. Qed.
  Lemma gt_R (x y : F) : is_finite x = true -> is_finite y = true -> gtb (@Bcompare prec emax) x y = if Rlt_dec (B2R y) (B2R x) then true else false.
  Proof. intros A B. rewrite (gtb_ltb _ (Bcompare_laws prec emax)). apply lt_Rb; assumption. Qed.

  Lemma sub_e (a b : F) : is_finite (a_sub FA a b) = true -> Rabs (B2R (a_sub FA a b) - (B2R a - B2R b)) <= u * Rabs (B2R a - B2R b).
  Proof. apply (sub_rel prec emax Hp He). Qed.
  Lemma add_e (a b : F) : is_finite (a_add FA a b) = true -> Rabs (B2R (a_add FA a b) - (B2R a + B2R b)) <= u * Rabs (B2R a + B2R b).
  Proof. intros H. apply (proj1 (add_rel prec emax Hp He a b H)). Qed.
  Lemma mul_e (a b : F) : is_finite (a_mul FA a b) = true -> Rabs (B2R (a_mul FA a b) - B2R a * B2R b) <= u * Rabs (B2R a * B2R b) + h.
  Proof. intros H. destruct (mult_fin prec emax Hp He a b H) as (_ & _ & ->). apply (rnd_err prec emax Hp1). Qed.

  (** the fraction *)
  Lemma frac_err (x a b : F) : is_finite x = true -> is_finite (a_sub FA b a) = true -> B2R a < B2R x < B2R b ->
    is_finite (a_div FA (a_sub FA x a) (a_sub FA b a)) = true ->
    err u h 1 4 0 (B2R (a_div FA (a_sub FA x a) (a_sub FA b a))) (frac (B2R a) (B2R b) (B2R x)).
  Proof.
    intros Fx Fd B Fq. pose proof (sub_e _ _ Fd) as Ed. rewrite (Rabs_pos_eq (B2R b - B2R a)) in Ed by lra.
    assert (Pd : 0 < B2R (a_sub FA b a)) by (apply Rabs_le_inv in Ed; pose proof u_small as US; assert (u * (B2R b - B2R a) <= / 2048 * (B2R b - B2R a)) by (apply Rmult_le_compat_r; lra); lra).
    destruct (div_fin prec emax Hp He _ _ Fd ltac:(lra) Fq) as (Fn & Eq). pose proof (sub_e _ _ Fn) as En. rewrite (Rabs_pos_eq (B2R x - B2R a)) in En by lra.
    unfold frac. apply (err_quot u h u_small h_small (B2R x - B2R a) (B2R b - B2R a) (B2R (a_sub FA x a)) (B2R (a_sub FA b a)) _ 1 1); try lra.
    rewrite Eq. apply (rnd_err prec emax Hp1).
  Qed.
  Lemma frac_01 a b x : a < x < b -> 0 <= frac a b x <= 1.
  Proof.
    intros B. unfold frac. split; [apply Rmult_le_pos; [lra|left; apply Rinv_0_lt_compat; lra]|].
    apply (Rmult_le_reg_r (b - a)); [lra|]. unfold Rdiv. rewrite Rmult_assoc, Rinv_l by lra. lra.
  Qed.
  Notation err := (err u h).

  Ltac num := unfold U1; try lra.
  Lemma Rabs_le_mul D c t : 0 <= t <= c -> Rabs (D * t) <= c * Rabs D.
  Proof. intros H. rewrite Rabs_mult, (Rabs_pos_eq t) by lra. rewrite Rmult_comm. apply Rmult_le_compat_r; [apply Rabs_pos|lra]. Qed.

  Theorem linearstep_bound (x a b fa fb : F) : is_finite x = true -> B2R a <= B2R b -> is_finite (a_sub FA b a) = true ->
    is_finite (linearstep FA x a b fa fb) = true ->
    Rabs (B2R (linearstep FA x a b fa fb) - transition ramp_profile (B2R a) (B2R b) (B2R fa) (B2R fb) (B2R x))
      <= 8 * u * (Rabs (B2R fa) + Rabs (B2R fb)) + 3 * h.
  Proof.
    intros Fx AB Fd. destruct (minus_fin prec emax Hp He b a Fd) as (Fb & Fa & _). unfold linearstep, transition. cbn [a_cmp farith].
    pose proof u_small as US. pose proof h_small as HS. pose proof (Rabs_pos (B2R fa)) as PA. pose proof (Rabs_pos (B2R fb)) as PB.
    assert (Z : 0 <= 8 * u * (Rabs (B2R fa) + Rabs (B2R fb)) + 3 * h) by (apply Rplus_le_le_0_compat; [apply Rmult_le_pos|]; lra).
    rewrite gt_R, le_R, ge_R by assumption. destruct (Rlt_dec (B2R b) (B2R a)); [lra|].
    destruct (Rle_dec (B2R x) (B2R a)) as [|XA]; [intros _; replace (B2R fa - B2R fa) with 0 by ring; rewrite Rabs_R0; exact Z|].
    destruct (Rle_dec (B2R b) (B2R x)) as [|XB]; [intros _; replace (B2R fb - B2R fb) with 0 by ring; rewrite Rabs_R0; exact Z|].
    assert (BT : B2R a < B2R x < B2R b) by lra. clear XA XB.
    replace (eqb (@Bcompare prec emax) a b) with false.
    2: { symmetry. unfold eqb. pose proof (lt_Rb a b Fa Fb) as L. unfold ltb in L. destruct (Rlt_dec (B2R a) (B2R b)); [|lra]. destruct (Bcompare a b) as [[]|]; congruence || reflexivity. }
    intros Fv. destruct (plus_fin prec emax Hp He _ _ Fv) as (F1 & F2 & _). destruct (mult_fin prec emax Hp He _ _ F1) as (_ & Fw & _).
    destruct (mult_fin prec emax Hp He _ _ F2) as (_ & Ft & _).
    pose proof (frac_err x a b Fx Fd BT Ft) as ET. pose proof (frac_01 _ _ _ BT) as BD.
    set (t := frac (B2R a) (B2R b) (B2R x)) in *. set (T := a_div FA (a_sub FA x a) (a_sub FA b a)) in *.
    pose proof (sub_e _ _ Fw) as E1. destruct (small_int 1 ltac:(lia)) as [_ R1]. rewrite R1 in E1.
    assert (EW : err 1 (51/10) 0 (B2R (a_sub FA (a_ofZ FA 1) T)) (1 + - t)).
    { refine (err_sum u h US HS 1 0 0 4 0 1 _ _ 1 1 (- B2R T) (- t) _ (1 - B2R T) _ _ _ _ _ _ (err_exact u h 1 1) (err_opp u h 1 4 0 _ _ ET) E1 _ _ _); num.
      split; [reflexivity|]. rewrite Rabs_pos_eq; lra. }
    assert (EA : err (Rabs (B2R fa)) (62/10) 1 (B2R (a_mul FA fa (a_sub FA (a_ofZ FA 1) T))) (B2R fa * (1 + - t))).
    { refine (err_mul u h US HS (Rabs (B2R fa)) 0 0 (51/10) 1 1 1 _ _ (B2R fa) _ _ _ _ _ _ _ _ _ _ _ (err_exact u h _ _) EW _ _ _ (mul_e _ _ F1) _ _); num.
      - rewrite Rabs_pos_eq; lra.
      - apply Rabs_le_mul. lra. }
    assert (EB : err (Rabs (B2R fb)) (62/10) 1 (B2R (a_mul FA fb T)) (B2R fb * t)).
    { refine (err_mul u h US HS (Rabs (B2R fb)) 0 0 4 1 1 1 _ _ (B2R fb) _ _ _ _ _ _ _ _ _ _ _ (err_exact u h _ _) ET _ _ _ (mul_e _ _ F2) _ _); num.
      - rewrite Rabs_pos_eq; lra.
      - apply Rabs_le_mul. lra. }
    assert (PD : 0 <= Rabs (B2R fa) + Rabs (B2R fb)) by lra. set (D := Rabs (B2R fa) + Rabs (B2R fb)) in *.
    assert (GA : err D (62/10) 2 (B2R (a_mul FA fa (a_sub FA (a_ofZ FA 1) T)) + B2R (a_mul FA fb T)) (B2R fa * (1 + - t) + B2R fb * t)).
    { unfold P_StepF.err in *. set (p := B2R (a_mul FA fa _)) in *. set (q := B2R (a_mul FA fb _)) in *.
      replace (p + q - (B2R fa * (1 + - t) + B2R fb * t)) with ((p - B2R fa * (1 + - t)) + (q - B2R fb * t)) by ring.
      eapply Rle_trans; [apply Rabs_triang|]. unfold D. lra. }
    replace (B2R fa + (B2R fb - B2R fa) * ramp_profile t) with ((B2R fa * (1 + - t) + B2R fb * t) + 0) by (unfold ramp_profile; ring).
    pose proof (add_e _ _ Fv) as EV.
    assert (EVV : err D 8 3 (B2R (a_add FA (a_mul FA fa (a_sub FA (a_ofZ FA 1) T)) (a_mul FA fb T))) (B2R fa * (1 + - t) + B2R fb * t + 0)).
    { refine (err_sum u h US HS D (62/10) 2 0 0 1 _ _ _ _ 0 0 _ _ _ _ _ _ _ _ GA (err_exact u h D 0) EV _ _ _); num.
      split; [ring|]. rewrite Rplus_0_r. eapply Rle_trans; [apply Rabs_triang|]. rewrite !Rabs_mult, (Rabs_pos_eq t), (Rabs_pos_eq (1 + - t)) by lra.
      unfold D. assert (Rabs (B2R fa) * (1 + - t) <= Rabs (B2R fa) * 1) by (apply Rmult_le_compat_l; lra). assert (Rabs (B2R fb) * t <= Rabs (B2R fb) * 1) by (apply Rmult_le_compat_l; lra). lra. }
    unfold P_StepF.err in EVV. fold D. replace (8 * u * D) with (8 * (u * D)) by ring. exact EVV.
  Qed.

  Lemma trans_cases prof (x a b fa fb half mid : F) K : is_finite x = true -> B2R a <= B2R b -> is_finite (a_sub FA b a) = true -> 0 <= K ->
    (B2R a < B2R x < B2R b -> is_finite mid = true -> Rabs (B2R mid - (B2R fa + (B2R fb - B2R fa) * prof (frac (B2R a) (B2R b) (B2R x)))) <= K) ->
    let res := if gtb (@Bcompare prec emax) a b then a_nan FA else if leb (@Bcompare prec emax) x a then fa else if geb (@Bcompare prec emax) x b then fb
      else if eqb (@Bcompare prec emax) a b then half else mid in
    is_finite res = true -> Rabs (B2R res - transition prof (B2R a) (B2R b) (B2R fa) (B2R fb) (B2R x)) <= K.
  Proof.
    intros Fx AB Fd Z HM res. unfold res. clear res. destruct (minus_fin prec emax Hp He b a Fd) as (Fb & Fa & _). unfold transition.
    rewrite gt_R, le_R, ge_R by assumption. destruct (Rlt_dec (B2R b) (B2R a)); [lra|].
    destruct (Rle_dec (B2R x) (B2R a)) as [|XA]; [intros _; replace (B2R fa - B2R fa) with 0 by ring; rewrite Rabs_R0; exact Z|].
    destruct (Rle_dec (B2R b) (B2R x)) as [|XB]; [intros _; replace (B2R fb - B2R fb) with 0 by ring; rewrite Rabs_R0; exact Z|].
    assert (BT : B2R a < B2R x < B2R b) by lra.
    replace (eqb (@Bcompare prec emax) a b) with false.
    2: { symmetry. unfold eqb. pose proof (lt_Rb a b Fa Fb) as L. unfold ltb in L. destruct (Rlt_dec (B2R a) (B2R b)); [|lra]. destruct (Bcompare a b) as [[]|]; congruence || reflexivity. }
    exact (HM BT).
  Qed.

  (** powers of the fraction times D *)
  Lemma pow_01 t n : 0 <= t <= 1 -> 0 <= t ^ n <= 1.
  Proof. intros H. induction n as [|n IH]; cbn [pow]; [lra|]. split; [apply Rmult_le_pos; lra|]. replace 1 with (1 * 1) by ring. apply Rmult_le_compat; lra. Qed.
  Lemma cubic_01 t : 0 <= t <= 1 -> 0 <= cubic_profile t <= 1.
  Proof.
    intros H. unfold cubic_profile. split; [apply Rmult_le_pos; [apply pow2_ge_0|lra]|].
    assert (0 <= (1 - t) ^ 2 * (1 + 2 * t)) by (apply Rmult_le_pos; [apply pow2_ge_0|lra]). lra.
  Qed.
  Lemma quintic_01 t : 0 <= t <= 1 -> 0 <= quintic_profile t <= 1.
  Proof.
    intros H. unfold quintic_profile. split.
    - apply Rmult_le_pos; [apply pow_le; lra|]. replace (6 * t ^ 2 - 15 * t + 10) with (6 * (t - 15 / 12) ^ 2 + 5 / 8) by field. pose proof (pow2_ge_0 (t - 15 / 12)). lra.
    - assert (0 <= (1 - t) ^ 3 * (6 * t ^ 2 + 3 * t + 1)) by (apply Rmult_le_pos; [apply pow_le; lra|pose proof (pow2_ge_0 t); lra]). lra.
  Qed.
  Lemma mix_abs fa fb c : 0 <= c <= 1 -> Rabs (fa + (fb - fa) * c) <= Rabs fa + Rabs fb.
  Proof.
    intros H. replace (fa + (fb - fa) * c) with ((1 - c) * fa + c * fb) by ring. pose proof (Rabs_pos fa). pose proof (Rabs_pos fb).
    eapply Rle_trans; [apply Rabs_triang|]. rewrite !Rabs_mult, (Rabs_pos_eq c), (Rabs_pos_eq (1 - c)) by lra.
    assert ((1 - c) * Rabs fa <= 1 * Rabs fa) by (apply Rmult_le_compat_r; lra). assert (c * Rabs fb <= 1 * Rabs fb) by (apply Rmult_le_compat_r; lra). lra.
  Qed.
  Lemma diff_e (fa fb : F) : is_finite (a_sub FA fb fa) = true -> err (Rabs (B2R fb - B2R fa)) 1 0 (B2R (a_sub FA fb fa)) (B2R fb - B2R fa).
  Proof. intros H. unfold P_StepF.err. eapply Rle_trans; [apply sub_e; exact H|]. lra. Qed.

  Theorem smoothstep3_bound (x a b fa fb : F) : is_finite x = true -> B2R a <= B2R b -> is_finite (a_sub FA b a) = true ->
    is_finite (smoothstep3 FA x a b fa fb) = true ->
    let y := transition cubic_profile (B2R a) (B2R b) (B2R fa) (B2R fb) (B2R x) in
    Rabs (B2R (smoothstep3 FA x a b fa fb) - y) <= u * (Rabs (B2R fa) + Rabs (B2R fb)) + 50 * (u * Rabs (B2R fb - B2R fa)) + 9 * h.
  Proof.
    intros Fx AB Fd Fv. pose proof u_small as US. pose proof h_small as HS. pose proof (Rabs_pos (B2R fa)) as PA. pose proof (Rabs_pos (B2R fb)) as PB.
    pose proof (Rabs_pos (B2R fb - B2R fa)) as PD. cbv zeta. revert Fv. unfold smoothstep3. apply trans_cases; try assumption.
    { assert (0 <= u * Rabs (B2R fb - B2R fa)) by (apply Rmult_le_pos; lra). assert (0 <= u * (Rabs (B2R fa) + Rabs (B2R fb))) by (apply Rmult_le_pos; lra). lra. }
    intros BT Fv. destruct (plus_fin prec emax Hp He _ _ Fv) as (_ & F3 & _). destruct (mult_fin prec emax Hp He _ _ F3) as (F2 & Fq & _).
    destruct (mult_fin prec emax Hp He _ _ F2) as (F1 & Ft & _). destruct (mult_fin prec emax Hp He _ _ F1) as (FD & _ & _).
    destruct (minus_fin prec emax Hp He _ _ Fq) as (_ & F2t & _).
    pose proof (frac_err x a b Fx Fd BT Ft) as ET. pose proof (frac_01 _ _ _ BT) as T01.
    set (t := frac (B2R a) (B2R b) (B2R x)) in *. set (T := a_div FA (a_sub FA x a) (a_sub FA b a)) in *.
    pose proof (diff_e _ _ FD) as ED. set (D := B2R fb - B2R fa) in *. pose proof (pow_01 t 2 T01) as T2.
    destruct (small_int 2 ltac:(lia)) as [_ R2]. destruct (small_int 3 ltac:(lia)) as [_ R3].
    assert (E1 : err (Rabs D) (61/10) 1 (B2R (a_mul FA (a_sub FA fb fa) T)) (D * t)).
    { refine (err_mul u h US HS (Rabs D) 1 0 4 1 1 1 _ _ _ _ _ _ _ _ _ _ _ _ _ _ ED ET _ _ _ (mul_e _ _ F1) _ _); num; [rewrite Rabs_pos_eq; lra|apply Rabs_le_mul; lra]. }
    assert (E2 : err (Rabs D) (113/10) (21/10) (B2R (a_mul FA (a_mul FA (a_sub FA fb fa) T) T)) (D * t * t)).
    { refine (err_mul u h US HS (Rabs D) (61/10) 1 4 1 1 1 _ _ _ _ _ _ _ _ _ _ _ _ _ _ E1 ET _ _ _ (mul_e _ _ F2) _ _); num; [|rewrite Rabs_pos_eq; lra|];
        [apply Rabs_le_mul; lra|rewrite Rmult_assoc; apply Rabs_le_mul; replace (t * t) with (t ^ 2) by ring; lra]. }
    assert (EQ0 : err 1 (101/10) 0 (B2R (a_mul FA (a_ofZ FA 2) T)) (2 * t)).
    { pose proof (mul_e _ _ F2t) as M. rewrite R2 in M. apply (err_drop u h HS (1009/100) 1); num.
      refine (err_mul u h US HS 1 0 0 4 2 1 2 _ _ 2 2 _ _ _ _ _ _ _ _ _ _ (err_exact u h 1 2) ET _ _ _ M _ _); num; rewrite Rabs_pos_eq; lra. }
    assert (EQ : err 1 (132/10) 0 (B2R (a_sub FA (a_ofZ FA 3) (a_mul FA (a_ofZ FA 2) T))) (3 + - (2 * t))).
    { pose proof (sub_e _ _ Fq) as M. rewrite R3 in M.
      refine (err_sum u h US HS 1 0 0 (101/10) 0 3 _ _ 3 3 _ _ _ _ _ _ _ _ _ _ (err_exact u h 1 3) (err_opp u h 1 _ 0 _ _ EQ0) M _ _ _); num.
      split; [reflexivity|]. rewrite Rabs_pos_eq; lra. }
    assert (C01 : 0 <= t * t * (3 + - (2 * t)) <= 1) by (replace (t * t * (3 + - (2 * t))) with (cubic_profile t) by (unfold cubic_profile; ring); apply cubic_01; exact T01).
    assert (E3 : err (Rabs D) (49) 8 (B2R (a_mul FA (a_mul FA (a_mul FA (a_sub FA fb fa) T) T) (a_sub FA (a_ofZ FA 3) (a_mul FA (a_ofZ FA 2) T)))) (D * t * t * (3 + - (2 * t)))).
    { refine (err_mul u h US HS (Rabs D) (113/10) (21/10) (132/10) 1 3 1 _ _ _ _ _ _ _ _ _ _ _ _ _ _ E2 EQ _ _ _ (mul_e _ _ F3) _ _); num.
      - rewrite Rmult_assoc; apply Rabs_le_mul; replace (t * t) with (t ^ 2) by ring; lra.
      - rewrite Rabs_pos_eq; lra.
      - replace (D * t * t * (3 + - (2 * t))) with (D * (t * t * (3 + - (2 * t)))) by ring. apply Rabs_le_mul. lra. }
    unfold cubic_profile. replace (D * (t ^ 2 * (3 - 2 * t))) with (D * t * t * (3 + - (2 * t))) by ring.
    eapply Rle_trans; [exact (err_last u h US HS (Rabs D) 49 8 50 9 _ _ _ _ PD ltac:(lra) ltac:(lra) E3 (add_e _ _ Fv) ltac:(num) ltac:(num))|].
    assert (Y : Rabs (B2R fa + D * t * t * (3 + - (2 * t))) <= Rabs (B2R fa) + Rabs (B2R fb)).
    { replace (D * t * t * (3 + - (2 * t))) with ((B2R fb - B2R fa) * (t * t * (3 + - (2 * t)))) by (unfold D; ring). apply mix_abs. exact C01. }
    assert (u * Rabs (B2R fa + D * t * t * (3 + - (2 * t))) <= u * (Rabs (B2R fa) + Rabs (B2R fb))) by (apply Rmult_le_compat_l; lra).
    lra.
  Qed.

  Theorem smoothstep5_bound (x a b fa fb : F) : is_finite x = true -> B2R a <= B2R b -> is_finite (a_sub FA b a) = true ->
    is_finite (smoothstep5 FA x a b fa fb) = true ->
    let y := transition quintic_profile (B2R a) (B2R b) (B2R fa) (B2R fb) (B2R x) in
    Rabs (B2R (smoothstep5 FA x a b fa fb) - y) <= u * (Rabs (B2R fa) + Rabs (B2R fb)) + 305 * (u * Rabs (B2R fb - B2R fa)) + 37 * h.
  Proof.
    intros Fx AB Fd Fv. pose proof u_small as US. pose proof h_small as HS. pose proof (Rabs_pos (B2R fa)) as PA. pose proof (Rabs_pos (B2R fb)) as PB.
    pose proof (Rabs_pos (B2R fb - B2R fa)) as PD. cbv zeta. revert Fv. unfold smoothstep5. apply trans_cases; try assumption.
    { assert (0 <= u * Rabs (B2R fb - B2R fa)) by (apply Rmult_le_pos; lra). assert (0 <= u * (Rabs (B2R fa) + Rabs (B2R fb))) by (apply Rmult_le_pos; lra). lra. }
    intros BT Fv. destruct (plus_fin prec emax Hp He _ _ Fv) as (_ & F4 & _). destruct (mult_fin prec emax Hp He _ _ F4) as (F3 & Fq & _).
    destruct (mult_fin prec emax Hp He _ _ F3) as (F2 & Ft & _). destruct (mult_fin prec emax Hp He _ _ F2) as (F1 & _ & _). destruct (mult_fin prec emax Hp He _ _ F1) as (FD & _ & _).
    destruct (plus_fin prec emax Hp He _ _ Fq) as (Fr & _ & _). destruct (mult_fin prec emax Hp He _ _ Fr) as (_ & Fs & _).
    destruct (minus_fin prec emax Hp He _ _ Fs) as (F6t & _ & _).
    pose proof (frac_err x a b Fx Fd BT Ft) as ET. pose proof (frac_01 _ _ _ BT) as T01.
    set (t := frac (B2R a) (B2R b) (B2R x)) in *. set (T := a_div FA (a_sub FA x a) (a_sub FA b a)) in *.
    pose proof (diff_e _ _ FD) as ED. set (D := B2R fb - B2R fa) in *. pose proof (pow_01 t 2 T01) as T2. pose proof (pow_01 t 3 T01) as T3.
    destruct (small_int 6 ltac:(lia)) as [_ R6]. destruct (small_int 15 ltac:(lia)) as [_ R15]. destruct (small_int 10 ltac:(lia)) as [_ R10].
    assert (E1 : err (Rabs D) (61/10) 1 (B2R (a_mul FA (a_sub FA fb fa) T)) (D * t)).
    { refine (err_mul u h US HS (Rabs D) 1 0 4 1 1 1 _ _ _ _ _ _ _ _ _ _ _ _ _ _ ED ET _ _ _ (mul_e _ _ F1) _ _); num; [rewrite Rabs_pos_eq; lra|apply Rabs_le_mul; lra]. }
    assert (E2 : err (Rabs D) (113/10) (21/10) (B2R (a_mul FA (a_mul FA (a_sub FA fb fa) T) T)) (D * t * t)).
    { refine (err_mul u h US HS (Rabs D) (61/10) 1 4 1 1 1 _ _ _ _ _ _ _ _ _ _ _ _ _ _ E1 ET _ _ _ (mul_e _ _ F2) _ _); num; [|rewrite Rabs_pos_eq; lra|];
        [apply Rabs_le_mul; lra|rewrite Rmult_assoc; apply Rabs_le_mul; replace (t * t) with (t ^ 2) by ring; lra]. }
    assert (E3 : err (Rabs D) (166/10) (32/10) (B2R (a_mul FA (a_mul FA (a_mul FA (a_sub FA fb fa) T) T) T)) (D * t * t * t)).
    { refine (err_mul u h US HS (Rabs D) (113/10) (21/10) 4 1 1 1 _ _ _ _ _ _ _ _ _ _ _ _ _ _ E2 ET _ _ _ (mul_e _ _ F3) _ _); num; [|rewrite Rabs_pos_eq; lra|].
      - rewrite Rmult_assoc; apply Rabs_le_mul; replace (t * t) with (t ^ 2) by ring; lra.
      - replace (D * t * t * t) with (D * t ^ 3) by ring. apply Rabs_le_mul. lra. }
    assert (Q1 : err 1 (301/10) 0 (B2R (a_mul FA (a_ofZ FA 6) T)) (6 * t)).
    { pose proof (mul_e _ _ F6t) as M. rewrite R6 in M. apply (err_drop u h HS (3005/100) 1); num.
      refine (err_mul u h US HS 1 0 0 4 6 1 6 _ _ 6 6 _ _ _ _ _ _ _ _ _ _ (err_exact u h 1 6) ET _ _ _ M _ _); num; rewrite Rabs_pos_eq; lra. }
    assert (Q2 : err 1 (452/10) 0 (B2R (a_sub FA (a_mul FA (a_ofZ FA 6) T) (a_ofZ FA 15))) (6 * t + - 15)).
    { pose proof (sub_e _ _ Fs) as M. rewrite R15 in M.
      refine (err_sum u h US HS 1 (301/10) 0 0 0 15 _ _ _ _ (-15) (- 15) _ _ _ _ _ _ _ _ Q1 (err_exact u h 1 (-15)) M _ _ _); num.
      split; [ring|]. apply Rabs_le; lra. }
    assert (Q3 : err 1 121 0 (B2R (a_mul FA T (a_sub FA (a_mul FA (a_ofZ FA 6) T) (a_ofZ FA 15)))) (t * (6 * t + - 15))).
    { apply (err_drop u h HS (1205/10) 1); num.
      refine (err_mul u h US HS 1 4 0 (452/10) 1 15 15 _ _ _ _ _ _ _ _ _ _ _ _ _ _ ET Q2 _ _ _ (mul_e _ _ Fr) _ _); num; apply Rabs_le; try lra. }
    assert (QB : 0 <= t * (6 * t + - 15) + 10 <= 10).
    { replace (t * (6 * t + - 15) + 10) with (6 * (t - 15 / 12) ^ 2 + 5 / 8) by field. split; [pose proof (pow2_ge_0 (t - 15 / 12)); lra|].
      replace (6 * (t - 15 / 12) ^ 2 + 5 / 8) with (10 - t * (15 - 6 * t)) by field. assert (0 <= t * (15 - 6 * t)) by (apply Rmult_le_pos; lra). lra. }
    assert (Q4 : err 1 (1311/10) 0 (B2R (a_add FA (a_mul FA T (a_sub FA (a_mul FA (a_ofZ FA 6) T) (a_ofZ FA 15))) (a_ofZ FA 10))) (t * (6 * t + - 15) + 10)).
    { pose proof (add_e _ _ Fq) as M. rewrite R10 in M.
      refine (err_sum u h US HS 1 121 0 0 0 10 _ _ _ _ 10 10 _ _ _ _ _ _ _ _ Q3 (err_exact u h 1 10) M _ _ _); num.
      split; [ring|]. apply Rabs_le; lra. }
    pose proof (quintic_01 t T01) as C01. unfold quintic_profile in *.
    replace (D * (t ^ 3 * (6 * t ^ 2 - 15 * t + 10))) with (D * t * t * t * (t * (6 * t + - 15) + 10)) by ring.
    set (q := t * (6 * t + - 15) + 10) in *.
    assert (E4 : err (Rabs D) 304 36 (B2R (a_mul FA (a_mul FA (a_mul FA (a_mul FA (a_sub FA fb fa) T) T) T) (a_add FA (a_mul FA T (a_sub FA (a_mul FA (a_ofZ FA 6) T) (a_ofZ FA 15))) (a_ofZ FA 10)))) (D * t * t * t * q)).
    { refine (err_mul u h US HS (Rabs D) (166/10) (32/10) (1311/10) 1 10 1 _ _ _ _ _ _ _ _ _ _ _ _ _ _ E3 Q4 _ _ _ (mul_e _ _ F4) _ _); num.
      - replace (D * t * t * t) with (D * t ^ 3) by ring. apply Rabs_le_mul. lra.
      - rewrite Rabs_pos_eq; lra.
      - replace (D * t * t * t * q) with (D * (t ^ 3 * (6 * t ^ 2 - 15 * t + 10))) by (unfold q; ring). apply Rabs_le_mul. lra. }
    eapply Rle_trans; [exact (err_last u h US HS (Rabs D) 304 36 305 37 _ _ _ _ PD ltac:(lra) ltac:(lra) E4 (add_e _ _ Fv) ltac:(num) ltac:(num))|].
    assert (Y : Rabs (B2R fa + D * t * t * t * q) <= Rabs (B2R fa) + Rabs (B2R fb)).
    { replace (D * t * t * t * q) with ((B2R fb - B2R fa) * (t ^ 3 * (6 * t ^ 2 - 15 * t + 10))) by (unfold D, q; ring). apply mix_abs. exact C01. }
    assert (u * Rabs (B2R fa + D * t * t * t * q) <= u * (Rabs (B2R fa) + Rabs (B2R fb))) by (apply Rmult_le_compat_l; lra).
    lra.
  Qed.

  (** ** variograms *)
  Lemma ratio_err (x r : F) : is_finite r = true -> 0 <= B2R x <= B2R r -> 0 < B2R r -> is_finite (a_div FA x r) = true ->
    err 1 2 0 (B2R (a_div FA x r)) (B2R x / B2R r).
  Proof.
    intros Fr B Pr Fq. destruct (div_fin prec emax Hp He _ _ Fr ltac:(lra) Fq) as (_ & Eq).
    apply (err_quot u h u_small h_small (B2R x) (B2R r) (B2R x) (B2R r) _ 0 0); try lra.
    - replace (B2R x - B2R x) with 0 by ring. rewrite Rabs_R0. lra.
    - replace (B2R r - B2R r) with 0 by ring. rewrite Rabs_R0. lra.
    - rewrite Eq. apply (rnd_err prec emax Hp1).
  Qed.
  Lemma ratio_01 x r : 0 <= x <= r -> 0 < r -> 0 <= x / r <= 1.
  Proof.
    intros B P. split; [apply Rmult_le_pos; [lra|left; apply Rinv_0_lt_compat; lra]|].
    apply (Rmult_le_reg_r r); [lra|]. unfold Rdiv. rewrite Rmult_assoc, Rinv_l by lra. lra.
  Qed.
  Lemma vario_cases prof (x ng sl r mid : F) K : is_finite x = true -> is_finite r = true -> 0 <= K ->
    (B2R x <= B2R r -> is_finite mid = true -> Rabs (B2R mid - (B2R ng + (B2R sl - B2R ng) * prof (B2R x / B2R r))) <= K) ->
    let res := if gtb (@Bcompare prec emax) x r then sl else mid in
    is_finite res = true -> Rabs (B2R res - variogram prof (B2R ng) (B2R sl) (B2R r) (B2R x)) <= K.
  Proof.
    intros Fx Fr Z HM res. unfold res, variogram. clear res. rewrite gt_R by assumption.
    destruct (Rlt_dec (B2R r) (B2R x)) as [|X]; [intros _; replace (B2R sl - B2R sl) with 0 by ring; rewrite Rabs_R0; exact Z|].
    apply HM. lra.
  Qed.

  Theorem spherical_bound (x ng sl r : F) : is_finite x = true -> is_finite r = true -> 0 <= B2R x -> 0 < B2R r ->
    is_finite (semivar_spherical FA x ng sl r) = true ->
    Rabs (B2R (semivar_spherical FA x ng sl r) - variogram spherical_profile (B2R ng) (B2R sl) (B2R r) (B2R x))
      <= u * (Rabs (B2R ng) + Rabs (B2R sl)) + 15 * (u * Rabs (B2R sl - B2R ng)) + 5 * h.
  Proof.
    intros Fx Fr X0 R0. pose proof u_small as US. pose proof h_small as HS. pose proof (Rabs_pos (B2R ng)) as PA. pose proof (Rabs_pos (B2R sl)) as PB.
    pose proof (Rabs_pos (B2R sl - B2R ng)) as PD. unfold semivar_spherical. apply vario_cases; try assumption.
    { assert (0 <= u * Rabs (B2R sl - B2R ng)) by (apply Rmult_le_pos; lra). assert (0 <= u * (Rabs (B2R ng) + Rabs (B2R sl))) by (apply Rmult_le_pos; lra). lra. }
    intros BT Fv. destruct (plus_fin prec emax Hp He _ _ Fv) as (_ & F3 & _). destruct (mult_fin prec emax Hp He _ _ F3) as (F1 & Fq & _).
    destruct (mult_fin prec emax Hp He _ _ F1) as (FD & F2 & _). destruct (minus_fin prec emax Hp He _ _ Fq) as (_ & Fs & _).
    destruct (mult_fin prec emax Hp He _ _ Fs) as (Ft & _ & _).
    pose proof (ratio_err x r Fr ltac:(lra) R0 Ft) as ET. pose proof (ratio_01 (B2R x) (B2R r) ltac:(lra) R0) as T01.
    set (t := B2R x / B2R r) in *. set (T := a_div FA x r) in *. pose proof (pow_01 t 2 T01) as T2.
    pose proof (diff_e _ _ FD) as ED. set (D := B2R sl - B2R ng) in *.
    destruct (small_int 2 ltac:(lia)) as [I2 R2]. destruct (small_int 3 ltac:(lia)) as [_ R3].
    assert (EH : err 1 (16/10) 0 (B2R (a_div FA T (a_ofZ FA 2))) (t * / 2)).
    { apply (err_drop u h HS (155/100) 1); num. destruct (div_fin prec emax Hp He _ _ I2 ltac:(rewrite R2; lra) F2) as (_ & E). rewrite R2 in E.
      assert (M : Rabs (B2R (a_div FA T (a_ofZ FA 2)) - B2R T * / 2) <= u * Rabs (B2R T * / 2) + h) by (rewrite E; apply (rnd_err prec emax Hp1)).
      refine (err_mul u h US HS 1 2 0 0 1 (/ 2) (/ 2) _ _ _ _ (/ 2) (/ 2) _ _ _ _ _ _ _ _ ET (err_exact u h 1 (/ 2)) _ _ _ M _ _); num; rewrite Rabs_pos_eq; lra. }
    assert (E1 : err (Rabs D) (27/10) 1 (B2R (a_mul FA (a_sub FA sl ng) (a_div FA T (a_ofZ FA 2)))) (D * (t * / 2))).
    { refine (err_mul u h US HS (Rabs D) 1 0 (16/10) 1 (/ 2) (/ 2) _ _ _ _ _ _ _ _ _ _ _ _ _ _ ED EH _ _ _ (mul_e _ _ F1) _ _); num; [rewrite Rabs_pos_eq; lra|apply Rabs_le_mul; lra]. }
    assert (Q0 : err 1 (51/10) 0 (B2R (a_mul FA T T)) (t * t)).
    { apply (err_drop u h HS (505/100) 1); num.
      refine (err_mul u h US HS 1 2 0 2 1 1 1 _ _ _ _ _ _ _ _ _ _ _ _ _ _ ET ET _ _ _ (mul_e _ _ Fs) _ _); num; [rewrite Rabs_pos_eq; lra|rewrite Rabs_pos_eq; lra|].
      replace (t * t) with (t ^ 2) by ring. rewrite Rabs_pos_eq; lra. }
    assert (Q : err 1 (82/10) 0 (B2R (a_sub FA (a_ofZ FA 3) (a_mul FA T T))) (3 + - (t * t))).
    { pose proof (sub_e _ _ Fq) as M. rewrite R3 in M.
      refine (err_sum u h US HS 1 0 0 (51/10) 0 3 _ _ 3 3 _ _ _ _ _ _ _ _ _ _ (err_exact u h 1 3) (err_opp u h 1 _ 0 _ _ Q0) M _ _ _); num.
      split; [reflexivity|]. replace (t * t) with (t ^ 2) by ring. rewrite Rabs_pos_eq; lra. }
    assert (C01 : 0 <= spherical_profile t <= 1).
    { unfold spherical_profile. assert (P1 : 0 <= t * (3 - t ^ 2)) by (apply Rmult_le_pos; lra).
      assert (P2 : 0 <= (1 - t) ^ 2 * (2 + t)) by (apply Rmult_le_pos; [apply pow2_ge_0|lra]). lra. }
    replace (D * spherical_profile t) with (D * (t * / 2) * (3 + - (t * t))) by (unfold spherical_profile; field).
    assert (E3 : err (Rabs D) (142/10) (42/10) (B2R (a_mul FA (a_mul FA (a_sub FA sl ng) (a_div FA T (a_ofZ FA 2))) (a_sub FA (a_ofZ FA 3) (a_mul FA T T)))) (D * (t * / 2) * (3 + - (t * t)))).
    { refine (err_mul u h US HS (Rabs D) (27/10) 1 (82/10) (/ 2) 3 1 _ _ _ _ _ _ _ _ _ _ _ _ _ _ E1 Q _ _ _ (mul_e _ _ F3) _ _); num.
      - apply Rabs_le_mul; lra.
      - replace (t * t) with (t ^ 2) by ring. rewrite Rabs_pos_eq; lra.
      - replace (D * (t * / 2) * (3 + - (t * t))) with (D * spherical_profile t) by (unfold spherical_profile; field). apply Rabs_le_mul. lra. }
    eapply Rle_trans; [exact (err_last u h US HS (Rabs D) (142/10) (42/10) 15 5 _ _ _ _ PD ltac:(lra) ltac:(lra) E3 (add_e _ _ Fv) ltac:(num) ltac:(num))|].
    assert (Y : Rabs (B2R ng + D * (t * / 2) * (3 + - (t * t))) <= Rabs (B2R ng) + Rabs (B2R sl)).
    { replace (D * (t * / 2) * (3 + - (t * t))) with ((B2R sl - B2R ng) * spherical_profile t) by (unfold spherical_profile, D; field). apply mix_abs. exact C01. }
    assert (u * Rabs (B2R ng + D * (t * / 2) * (3 + - (t * t))) <= u * (Rabs (B2R ng) + Rabs (B2R sl))) by (apply Rmult_le_compat_l; lra).
    lra.
  Qed.

  Theorem parabolic_bound (x ng sl r : F) : is_finite x = true -> is_finite r = true -> 0 <= B2R x -> 0 < B2R r ->
    is_finite (semivar_parabolic FA x ng sl r) = true ->
    Rabs (B2R (semivar_parabolic FA x ng sl r) - variogram parabolic_profile (B2R ng) (B2R sl) (B2R r) (B2R x))
      <= u * (Rabs (B2R ng) + Rabs (B2R sl)) + 15 * (u * Rabs (B2R sl - B2R ng)) + 4 * h.
  Proof.
    intros Fx Fr X0 R0. pose proof u_small as US. pose proof h_small as HS. pose proof (Rabs_pos (B2R ng)) as PA. pose proof (Rabs_pos (B2R sl)) as PB.
    pose proof (Rabs_pos (B2R sl - B2R ng)) as PD. unfold semivar_parabolic. apply vario_cases; try assumption.
    { assert (0 <= u * Rabs (B2R sl - B2R ng)) by (apply Rmult_le_pos; lra). assert (0 <= u * (Rabs (B2R ng) + Rabs (B2R sl))) by (apply Rmult_le_pos; lra). lra. }
    intros BT Fv. destruct (plus_fin prec emax Hp He _ _ Fv) as (_ & F3 & _). destruct (mult_fin prec emax Hp He _ _ F3) as (F1 & Fq & _).
    destruct (mult_fin prec emax Hp He _ _ F1) as (FD & Ft & _).
    pose proof (ratio_err x r Fr ltac:(lra) R0 Ft) as ET. pose proof (ratio_01 (B2R x) (B2R r) ltac:(lra) R0) as T01.
    set (t := B2R x / B2R r) in *. set (T := a_div FA x r) in *.
    pose proof (diff_e _ _ FD) as ED. set (D := B2R sl - B2R ng) in *.
    destruct (small_int 2 ltac:(lia)) as [_ R2].
    assert (E1 : err (Rabs D) (41/10) 1 (B2R (a_mul FA (a_sub FA sl ng) T)) (D * t)).
    { refine (err_mul u h US HS (Rabs D) 1 0 2 1 1 1 _ _ _ _ _ _ _ _ _ _ _ _ _ _ ED ET _ _ _ (mul_e _ _ F1) _ _); num; [rewrite Rabs_pos_eq; lra|apply Rabs_le_mul; lra]. }
    assert (Q : err 1 (41/10) 0 (B2R (a_sub FA (a_ofZ FA 2) T)) (2 + - t)).
    { pose proof (sub_e _ _ Fq) as M. rewrite R2 in M.
      refine (err_sum u h US HS 1 0 0 2 0 2 _ _ 2 2 _ _ _ _ _ _ _ _ _ _ (err_exact u h 1 2) (err_opp u h 1 _ 0 _ _ ET) M _ _ _); num.
      split; [reflexivity|]. rewrite Rabs_pos_eq; lra. }
    assert (C01 : 0 <= parabolic_profile t <= 1).
    { unfold parabolic_profile. split; [apply Rmult_le_pos; lra|]. pose proof (pow2_ge_0 (1 - t)). lra. }
    replace (D * parabolic_profile t) with (D * t * (2 + - t)) by (unfold parabolic_profile; ring).
    assert (E3 : err (Rabs D) (136/10) (31/10) (B2R (a_mul FA (a_mul FA (a_sub FA sl ng) T) (a_sub FA (a_ofZ FA 2) T))) (D * t * (2 + - t))).
    { refine (err_mul u h US HS (Rabs D) (41/10) 1 (41/10) 1 2 1 _ _ _ _ _ _ _ _ _ _ _ _ _ _ E1 Q _ _ _ (mul_e _ _ F3) _ _); num.
      - apply Rabs_le_mul; lra.
      - rewrite Rabs_pos_eq; lra.
      - replace (D * t * (2 + - t)) with (D * parabolic_profile t) by (unfold parabolic_profile; ring). apply Rabs_le_mul. lra. }
    eapply Rle_trans; [exact (err_last u h US HS (Rabs D) (136/10) (31/10) 15 4 _ _ _ _ PD ltac:(lra) ltac:(lra) E3 (add_e _ _ Fv) ltac:(num) ltac:(num))|].
    assert (Y : Rabs (B2R ng + D * t * (2 + - t)) <= Rabs (B2R ng) + Rabs (B2R sl)).
    { replace (D * t * (2 + - t)) with ((B2R sl - B2R ng) * parabolic_profile t) by (unfold parabolic_profile, D; ring). apply mix_abs. exact C01. }
    assert (u * Rabs (B2R ng + D * t * (2 + - t)) <= u * (Rabs (B2R ng) + Rabs (B2R sl))) by (apply Rmult_le_compat_l; lra).
    lra.
  Qed.

  Theorem linear_bound (x ng sl r : F) : is_finite x = true -> is_finite r = true -> 0 <= B2R x -> 0 < B2R r ->
    is_finite (semivar_linear FA x ng sl r) = true ->
    Rabs (B2R (semivar_linear FA x ng sl r) - variogram ramp_profile (B2R ng) (B2R sl) (B2R r) (B2R x))
      <= u * (Rabs (B2R ng) + Rabs (B2R sl)) + 4 * (u * Rabs (B2R sl - B2R ng)) + (2 * B2R x + 2) * h.
  Proof.
    intros Fx Fr X0 R0. pose proof u_small as US. pose proof h_small as HS. pose proof (Rabs_pos (B2R ng)) as PA. pose proof (Rabs_pos (B2R sl)) as PB.
    pose proof (Rabs_pos (B2R sl - B2R ng)) as PD. unfold semivar_linear. apply vario_cases; try assumption.
    { assert (0 <= u * Rabs (B2R sl - B2R ng)) by (apply Rmult_le_pos; lra). assert (0 <= u * (Rabs (B2R ng) + Rabs (B2R sl))) by (apply Rmult_le_pos; lra).
      assert (0 <= (2 * B2R x + 2) * h) by (apply Rmult_le_pos; lra). lra. }
    intros BT Fv. destruct (plus_fin prec emax Hp He _ _ Fv) as (_ & F1 & _). destruct (mult_fin prec emax Hp He _ _ F1) as (Fs & _ & _).
    destruct (div_fin prec emax Hp He _ _ Fr ltac:(lra) Fs) as (FD & Es).
    pose proof (ratio_01 (B2R x) (B2R r) ltac:(lra) R0) as T01.
    pose proof (sub_e _ _ FD) as ED. pose proof (mul_e _ _ F1) as EM. pose proof (rnd_err prec emax Hp1 (B2R (a_sub FA sl ng) / B2R r)) as ES. rewrite <- Es in ES.
    change (/ 2 * bpow radix2 emin) with h in ES.
    set (D := B2R sl - B2R ng) in *. set (d := B2R (a_sub FA sl ng)) in *. set (S := B2R (a_div FA (a_sub FA sl ng) r)) in *. set (p := B2R (a_mul FA _ x)) in *.
    unfold ramp_profile. set (X := B2R x) in *. set (r' := B2R r) in *. set (t := X / r') in *.
    assert (UD : 0 <= u * Rabs D) by (apply Rmult_le_pos; lra).
    assert (Xt : X = r' * t) by (unfold t; field; lra).
    assert (Bd : Rabs d <= (1 + u) * Rabs D).
    { replace d with ((d - D) + D) by ring. eapply Rle_trans; [apply Rabs_triang|]. lra. }
    assert (A1 : Rabs (S * X - D * t) <= u * ((1 + u) * Rabs D) + u * Rabs D + X * h).
    { replace (S * X - D * t) with ((S - d / r') * X + (d - D) * t) by (rewrite Xt; field; lra).
      eapply Rle_trans; [apply Rabs_triang|]. rewrite !Rabs_mult, (Rabs_pos_eq X), (Rabs_pos_eq t) by lra.
      assert (Rabs (d - D) * t <= u * Rabs D * 1) by (apply Rmult_le_compat; try lra; apply Rabs_pos).
      assert (Rabs (S - d / r') * X <= (u * Rabs (d / r') + h) * X) by (apply Rmult_le_compat_r; assumption).
      assert (Rabs (d / r') * X = Rabs d * t).
      { unfold Rdiv. rewrite Rabs_mult, (Rabs_pos_eq (/ r')) by (left; apply Rinv_0_lt_compat; lra). rewrite Xt. field. lra. }
      assert (Rabs d * t <= (1 + u) * Rabs D * 1) by (apply Rmult_le_compat; try lra; apply Rabs_pos).
      assert (u * (Rabs d * t) <= u * ((1 + u) * Rabs D)) by (apply Rmult_le_compat_l; lra).
      replace ((u * Rabs (d / r') + h) * X) with (u * (Rabs (d / r') * X) + X * h) in * by ring. rewrite H1 in *. lra. }
    assert (u * (u * Rabs D) <= / 2048 * (u * Rabs D)) by (apply Rmult_le_compat_r; lra).
    assert (Hx : 0 <= X * h) by (apply Rmult_le_pos; lra).
    assert (A2 : Rabs (S * X - D * t) <= 201/100 * (u * Rabs D) + X * h) by lra.
    assert (Bt : Rabs (D * t) <= 1 * Rabs D) by (apply Rabs_le_mul; lra).
    assert (A3 : Rabs (S * X) <= Rabs D + (201/100 * (u * Rabs D) + X * h)).
    { replace (S * X) with ((S * X - D * t) + D * t) by ring. eapply Rle_trans; [apply Rabs_triang|]. lra. }
    assert (E3 : err (Rabs D) (31/10) (11/10 * X + 1) p (D * t)).
    { unfold P_StepF.err. replace (p - D * t) with ((p - S * X) + (S * X - D * t)) by ring. eapply Rle_trans; [apply Rabs_triang|].
      assert (u * Rabs (S * X) <= u * (Rabs D + (201/100 * (u * Rabs D) + X * h))) by (apply Rmult_le_compat_l; lra).
      assert (u * (X * h) <= / 2048 * (X * h)) by (apply Rmult_le_compat_r; lra). lra. }
    eapply Rle_trans; [exact (err_last u h US HS (Rabs D) (31/10) (11/10 * X + 1) 4 (2 * X + 2) _ _ _ _ PD ltac:(lra) ltac:(lra) E3 (add_e _ _ Fv) ltac:(num) ltac:(num))|].
    assert (Y : Rabs (B2R ng + D * t) <= Rabs (B2R ng) + Rabs (B2R sl)) by (apply mix_abs; exact T01).
    assert (u * Rabs (B2R ng + D * t) <= u * (Rabs (B2R ng) + Rabs (B2R sl))) by (apply Rmult_le_compat_l; lra).
    lra.
  Qed.

  (** ** the pulse *)
  Theorem trapezoid_bound (x a b c d amp : F) : is_finite x = true -> B2R a <= B2R b -> B2R b <= B2R c -> B2R c <= B2R d ->
    is_finite (a_sub FA b a) = true -> is_finite (a_sub FA d c) = true ->
    is_finite (trapezoid_pulse FA x a b c d amp) = true ->
    Rabs (B2R (trapezoid_pulse FA x a b c d amp) - trapezoid (B2R a) (B2R b) (B2R c) (B2R d) (B2R amp) (B2R x)) <= 6 * (u * Rabs (B2R amp)) + h.
  Proof.
    intros Fx AB BC CD Fba Fdc. destruct (minus_fin prec emax Hp He b a Fba) as (Fb & Fa & _). destruct (minus_fin prec emax Hp He d c Fdc) as (Fd & Fc & _).
    unfold trapezoid_pulse, trapezoid. cbn [a_cmp farith]. pose proof u_small as US. pose proof h_small as HS. pose proof (Rabs_pos (B2R amp)) as PA.
    assert (Z : 0 <= 6 * (u * Rabs (B2R amp)) + h) by (assert (0 <= u * Rabs (B2R amp)) by (apply Rmult_le_pos; lra); lra).
    rewrite !le_R, !ge_R, !lt_Rb by assumption. destruct (small_int 0 ltac:(lia)) as [_ R0].
    destruct (Rle_dec (B2R a) (B2R b)); [|lra]. destruct (Rle_dec (B2R b) (B2R c)); [|lra]. destruct (Rle_dec (B2R c) (B2R d)); [|lra]. cbn [andb negb].
    destruct (Rle_dec (B2R x) (B2R a)) as [|XA]; [intros _; cbn [orb]; rewrite R0, Rminus_0_r, Rabs_R0; exact Z|].
    destruct (Rle_dec (B2R d) (B2R x)) as [|XD]; [intros _; cbn [orb]; rewrite R0, Rminus_0_r, Rabs_R0; exact Z|]. cbn [orb].
    destruct (Rlt_dec (B2R x) (B2R b)) as [XB|XB].
    - destruct (Rle_dec (B2R b) (B2R x)); [lra|]. cbn [andb]. intros Fv. destruct (mult_fin prec emax Hp He _ _ Fv) as (_ & Ft & _).
      pose proof (frac_err x a b Fx Fba ltac:(lra) Ft) as ET. pose proof (frac_01 (B2R a) (B2R b) (B2R x) ltac:(lra)) as T01.
      assert (E : err (Rabs (B2R amp)) 6 1 (B2R (a_mul FA amp (a_div FA (a_sub FA x a) (a_sub FA b a)))) (B2R amp * frac (B2R a) (B2R b) (B2R x))).
      { refine (err_mul u h US HS (Rabs (B2R amp)) 0 0 4 1 1 1 _ _ _ _ _ _ _ _ _ _ _ _ _ _ (err_exact u h _ _) ET _ _ _ (mul_e _ _ Fv) _ _); num; [rewrite Rabs_pos_eq; lra|apply Rabs_le_mul; lra]. }
      unfold P_StepF.err in E. lra.
    - destruct (Rle_dec (B2R b) (B2R x)); [|lra]. destruct (Rlt_dec (B2R c) (B2R x)) as [XC|XC].
      2: { destruct (Rle_dec (B2R x) (B2R c)); [|lra]. cbn [andb]. intros _. replace (B2R amp - B2R amp) with 0 by ring. rewrite Rabs_R0. exact Z. }
      destruct (Rle_dec (B2R x) (B2R c)); [lra|]. cbn [andb]. intros Fv. destruct (mult_fin prec emax Hp He _ _ Fv) as (_ & Ft & _).
      pose proof (sub_e _ _ Fdc) as Ed. rewrite (Rabs_pos_eq (B2R d - B2R c)) in Ed by lra.
      assert (Pd : 0 < B2R (a_sub FA d c)) by (apply Rabs_le_inv in Ed; assert (u * (B2R d - B2R c) <= / 2048 * (B2R d - B2R c)) by (apply Rmult_le_compat_r; lra); lra).
      destruct (div_fin prec emax Hp He _ _ Fdc ltac:(lra) Ft) as (Fn & Eq). pose proof (sub_e _ _ Fn) as En. rewrite (Rabs_pos_eq (B2R d - B2R x)) in En by lra.
      assert (ET : err 1 4 0 (B2R (a_div FA (a_sub FA d x) (a_sub FA d c))) ((B2R d - B2R x) / (B2R d - B2R c))).
      { apply (err_quot u h US HS _ _ (B2R (a_sub FA d x)) (B2R (a_sub FA d c)) _ 1 1); try lra. rewrite Eq. apply (rnd_err prec emax Hp1). }
      pose proof (ratio_01 (B2R d - B2R x) (B2R d - B2R c) ltac:(lra) ltac:(lra)) as T01.
      replace (frac (B2R d) (B2R c) (B2R x)) with ((B2R d - B2R x) / (B2R d - B2R c)) by (unfold frac; field; lra).
      assert (E : err (Rabs (B2R amp)) 6 1 (B2R (a_mul FA amp (a_div FA (a_sub FA d x) (a_sub FA d c)))) (B2R amp * ((B2R d - B2R x) / (B2R d - B2R c)))).
      { refine (err_mul u h US HS (Rabs (B2R amp)) 0 0 4 1 1 1 _ _ _ _ _ _ _ _ _ _ _ _ _ _ (err_exact u h _ _) ET _ _ _ (mul_e _ _ Fv) _ _); num; [rewrite Rabs_pos_eq; lra|apply Rabs_le_mul; lra]. }
      unfold P_StepF.err in E. lra.
  Qed.
End StepF.

(** ** transitions so wide that b - a overflows *)
Lemma f64_R z s : B2SF (f64_ofZ z) = s -> B2R (f64_ofZ z) = SF2R radix2 s.
Proof. intros <-. symmetry. apply SF2R_B2SF. Qed.
Lemma wide_overflow : exists a b x lo hi : f64,
  is_finite a = true /\ is_finite b = true /\ is_finite x = true /\ B2R a < B2R x < B2R b /\
  (forall p, In p [ramp_profile; cubic_profile; quintic_profile] -> transition p (B2R a) (B2R b) (B2R lo) (B2R hi) (B2R x) = 4) /\
  trapezoid (B2R a) (B2R b) (B2R b) (B2R b) (B2R hi) (B2R x) = 4 /\
  (forall v, In v [linearstep f64_arith x a b lo hi; smoothstep3 f64_arith x a b lo hi; smoothstep5 f64_arith x a b lo hi; trapezoid_pulse f64_arith x a b b b hi] ->
     is_finite v = true /\ B2R v = 0).
Proof.
  assert (E0 : B2R (f64_ofZ 0) = 0) by (rewrite (f64_R 0 (S754_zero false)) by (vm_compute; reflexivity); reflexivity).
  assert (E8 : B2R (f64_ofZ 8) = 8) by (rewrite (f64_R 8 (S754_finite false 4503599627370496 (-49))) by (vm_compute; reflexivity); unfold SF2R, F2R; simpl; lra).
  assert (EB : 0 < B2R (f64_ofZ (2 ^ 1023))).
  { rewrite (f64_R (2 ^ 1023) (S754_finite false 4503599627370496 971)) by (vm_compute; reflexivity). apply F2R_gt_0. reflexivity. }
  exists (Bopp (f64_ofZ (2 ^ 1023))), (f64_ofZ (2 ^ 1023)), (f64_ofZ 0), (f64_ofZ 0), (f64_ofZ 8).
  split; [vm_compute; reflexivity|]. split; [vm_compute; reflexivity|]. split; [vm_compute; reflexivity|].
  rewrite !B2R_Bopp, E0, E8. set (B := B2R (f64_ofZ (2 ^ 1023))) in *. split; [lra|].
  assert (FR : frac (- B) B 0 = / 2) by (unfold frac; field; lra).
  split; [|split].
  - intros p Hin. unfold transition. destruct (Rle_dec 0 (- B)); [lra|]. destruct (Rle_dec B 0); [lra|]. rewrite FR.
    destruct Hin as [<-|[<-|[<-|[]]]]; unfold ramp_profile, cubic_profile, quintic_profile; field.
  - unfold trapezoid. destruct (Rle_dec 0 (- B)); [lra|]. destruct (Rle_dec B 0); [lra|]. destruct (Rlt_dec 0 B); [|lra]. rewrite FR. field.
  - intros v Hin. assert (E : B2SF v = S754_zero false) by (destruct Hin as [<-|[<-|[<-|[<-|[]]]]]; vm_compute; reflexivity).
    destruct v as [[]|[]| |[] m e Hm]; try discriminate E; split; reflexivity.
Qed.
