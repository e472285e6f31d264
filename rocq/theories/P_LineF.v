(** Rounding errors of linear_interp1d, cross2, cross3, abs_squared and abssq in IEEE arithmetic. *)
From Coq Require Import ZArith Reals List Bool Lia Lra Psatz SpecFloat.
From Flocq Require Import Core BinarySingleNaN Plus_error Relative.
From Verif Require Import CSem CSemP Num NumP NumF M_Stat M_Geom M_Elem M_Signal S_Stat S_Geom S_Elem S_Signal S_Line P_Kbn P_SumF P_Geom P_GeomF P_Interp P_Elem.
Import ListNotations.
Open Scope R_scope.

(** ** real arithmetic *)
Section Reals.
  Context (u : R) (U : 0 <= u <= / 2).
  Definition within (e : R) (p r : R) : Prop := Rabs (p - r) <= e * Rabs r.

  Lemma within_abs e p r : within e p r -> Rabs p <= (1 + e) * Rabs r.
  Proof. unfold within. intros H. pose proof (Rabs_triang (p - r) r) as T. replace (p - r + r) with p in T by ring. lra. Qed.
  Lemma within_mul e f p q r s : 0 <= e -> 0 <= f -> within e p r -> within f q s -> within ((1 + e) * (1 + f) - 1) (p * q) (r * s).
  Proof.
    intros He Hf H1 H2. unfold within in *. pose proof (within_abs _ _ _ H1) as A1. rewrite Rabs_mult.
    replace (p * q - r * s) with (p * (q - s) + (p - r) * s) by ring.
    eapply Rle_trans; [apply Rabs_triang|]. rewrite !Rabs_mult.
    pose proof (Rabs_pos r). pose proof (Rabs_pos s). pose proof (Rabs_pos p). pose proof (Rabs_pos (q - s)).
    assert (Rabs p * Rabs (q - s) <= ((1 + e) * Rabs r) * (f * Rabs s)) by (apply Rmult_le_compat; assumption).
    assert (Rabs (p - r) * Rabs s <= (e * Rabs r) * Rabs s) by (apply Rmult_le_compat_r; assumption). nra.
  Qed.
  Lemma within_inv p r : r <> 0 -> within u p r -> p <> 0 /\ within ((1 + u) ^ 2 - 1) (/ p) (/ r).
  Proof.
    intros Hr H. unfold within in *. pose proof (Rabs_pos_lt r Hr) as PR.
    assert (PP : (1 - u) * Rabs r <= Rabs p).
    { pose proof (Rabs_triang (r - p) p) as T. replace (r - p + p) with r in T by ring. rewrite (Rabs_minus_sym r p) in T. lra. }
    assert (Hp : p <> 0). { intros ->. rewrite Rabs_R0 in PP. assert (/2 * Rabs r <= (1 - u) * Rabs r) by (apply Rmult_le_compat_r; lra). lra. }
    split; [exact Hp|]. pose proof (Rabs_pos_lt p Hp) as PP0.
    replace (/ p - / r) with ((r - p) / (p * r)) by (field; split; assumption).
    unfold Rdiv. rewrite Rabs_mult. rewrite (Rabs_inv (p * r)), (Rabs_inv r), Rabs_mult, Rabs_minus_sym.
    rewrite Rinv_mult.
    assert (D : Rabs (p - r) * / Rabs p <= (1 + u) ^ 2 - 1).
    { apply (Rmult_le_reg_r (Rabs p)); [exact PP0|]. rewrite Rmult_assoc, Rinv_l by lra. rewrite Rmult_1_r.
      eapply Rle_trans; [exact H|]. assert (K : u <= ((1 + u) ^ 2 - 1) * (1 - u)) by (cbn; nra).
      assert (0 <= (1 + u) ^ 2 - 1) by (cbn; nra).
      assert (((1 + u) ^ 2 - 1) * ((1 - u) * Rabs r) <= ((1 + u) ^ 2 - 1) * Rabs p) by (apply Rmult_le_compat_l; assumption).
      assert (u * Rabs r <= ((1 + u) ^ 2 - 1) * (1 - u) * Rabs r) by (apply Rmult_le_compat_r; lra). lra. }
    rewrite <- Rmult_assoc. apply Rmult_le_compat_r; [left; apply Rinv_0_lt_compat; exact PR|exact D].
  Qed.

  (** a quotient times a third factor, three factors with error u, two roundings *)
  Lemma line_prod eta a d f a' d' f' q p : 0 <= eta -> d <> 0 -> within u a' a -> within u d' d -> within u f' f ->
    Rabs (q - f' / d') <= u * Rabs (f' / d') + eta -> Rabs (p - q * a') <= u * Rabs (q * a') + eta ->
    Rabs (p - f * a / d) <= ((1 + u) ^ 6 - 1) * Rabs (f * a / d) + ((1 + u) ^ 2 * Rabs a + 1) * eta.
  Proof.
    intros HE Hd Ha Hd' Hf Hq Hp. destruct (within_inv _ _ Hd Hd') as [Nd Id].
    assert (W2 : 0 <= (1 + u) ^ 2 - 1) by (cbn; nra).
    pose proof (within_mul _ _ _ _ _ _ (proj1 U) W2 Hf Id) as W. fold (f' / d') in W. fold (f / d) in W.
    replace ((1 + u) * (1 + ((1 + u) ^ 2 - 1)) - 1) with ((1 + u) ^ 3 - 1) in W by ring.
    pose proof (within_abs _ _ _ W) as AW. replace (1 + ((1 + u) ^ 3 - 1)) with ((1 + u) ^ 3) in AW by ring.
    pose proof (within_abs _ _ _ Ha) as AA.
    set (T := f / d) in *. set (t := f' / d') in *. unfold within in W, Ha.
    pose proof (Rabs_pos T) as PT. pose proof (Rabs_pos a) as PA. pose proof (Rabs_pos a') as PA'. pose proof (Rabs_pos t) as Pt.
    (* q near T *)
    assert (Q : Rabs (q - T) <= ((1 + u) ^ 4 - 1) * Rabs T + eta).
    { replace (q - T) with ((q - t) + (t - T)) by ring. eapply Rle_trans; [apply Rabs_triang|].
      assert (u * Rabs t <= u * ((1 + u) ^ 3 * Rabs T)) by (apply Rmult_le_compat_l; [lra|exact AW]).
      replace ((1 + u) ^ 4) with ((1 + u) ^ 3 + u * (1 + u) ^ 3) by ring. lra. }
    assert (AQ : Rabs q <= (1 + u) ^ 4 * Rabs T + eta).
    { pose proof (Rabs_triang (q - T) T) as X. replace (q - T + T) with q in X by ring. lra. }
    assert (P4 : 1 <= (1 + u) ^ 4) by (apply pow_R1_Rle; lra).
    (* q a' near T a *)
    assert (QA : Rabs (q * a' - T * a) <= ((1 + u) ^ 5 - 1) * (Rabs T * Rabs a) + (1 + u) * Rabs a * eta).
    { replace (q * a' - T * a) with (q * (a' - a) + (q - T) * a) by ring. eapply Rle_trans; [apply Rabs_triang|]. rewrite !Rabs_mult.
      assert (Rabs q * Rabs (a' - a) <= ((1 + u) ^ 4 * Rabs T + eta) * (u * Rabs a)) by (apply Rmult_le_compat; (apply Rabs_pos || assumption)).
      assert (Rabs (q - T) * Rabs a <= (((1 + u) ^ 4 - 1) * Rabs T + eta) * Rabs a) by (apply Rmult_le_compat_r; assumption).
      replace (((1 + u) ^ 5 - 1) * (Rabs T * Rabs a) + (1 + u) * Rabs a * eta)
        with (((1 + u) ^ 4 * Rabs T + eta) * (u * Rabs a) + (((1 + u) ^ 4 - 1) * Rabs T + eta) * Rabs a) by ring. lra. }
    assert (AQA : Rabs (q * a') <= (1 + u) ^ 5 * (Rabs T * Rabs a) + (1 + u) * Rabs a * eta).
    { pose proof (Rabs_triang (q * a' - T * a) (T * a)) as X. replace (q * a' - T * a + T * a) with (q * a') in X by ring. rewrite (Rabs_mult T a) in X. lra. }
    replace (f * a / d) with (T * a) by (unfold T; field; exact Hd). rewrite (Rabs_mult T a).
    replace (p - T * a) with ((p - q * a') + (q * a' - T * a)) by ring. eapply Rle_trans; [apply Rabs_triang|].
    assert (u * Rabs (q * a') <= u * ((1 + u) ^ 5 * (Rabs T * Rabs a) + (1 + u) * Rabs a * eta)) by (apply Rmult_le_compat_l; [lra|exact AQA]).
    replace (((1 + u) ^ 6 - 1) * (Rabs T * Rabs a) + ((1 + u) ^ 2 * Rabs a + 1) * eta)
      with (u * ((1 + u) ^ 5 * (Rabs T * Rabs a) + (1 + u) * Rabs a * eta) + eta + (((1 + u) ^ 5 - 1) * (Rabs T * Rabs a) + (1 + u) * Rabs a * eta)) by ring.
    lra.
  Qed.

  Lemma line_sum eta g y0 L p r : 0 <= eta -> 0 <= g ->
    Rabs (p - L) <= ((1 + u) ^ 6 - 1) * Rabs L + ((1 + u) ^ 2 * g + 1) * eta ->
    Rabs (r - (y0 + p)) <= u * Rabs (y0 + p) ->
    Rabs (r - (y0 + L)) <= u * Rabs (y0 + L) + ((1 + u) ^ 7 - 1) * Rabs L + (1 + u) ^ 3 * (g + 1) * eta.
  Proof.
    intros HE Hg Hp Hr. pose proof (Rabs_pos L) as PL.
    assert (A : Rabs (y0 + p) <= Rabs (y0 + L) + Rabs (p - L)).
    { replace (y0 + p) with ((y0 + L) + (p - L)) by ring. apply Rabs_triang. }
    replace (r - (y0 + L)) with ((r - (y0 + p)) + (p - L)) by ring. eapply Rle_trans; [apply Rabs_triang|].
    assert (u * Rabs (y0 + p) <= u * (Rabs (y0 + L) + Rabs (p - L))) by (apply Rmult_le_compat_l; lra).
    assert (K : (1 + u) * Rabs (p - L) <= (1 + u) * (((1 + u) ^ 6 - 1) * Rabs L + ((1 + u) ^ 2 * g + 1) * eta)) by (apply Rmult_le_compat_l; lra).
    assert (X : (1 + u) * (((1 + u) ^ 2 * g + 1) * eta) <= (1 + u) ^ 3 * (g + 1) * eta).
    { rewrite <- Rmult_assoc. apply Rmult_le_compat_r; [exact HE|].
      assert (1 <= (1 + u) ^ 2) by (apply pow_R1_Rle; lra). replace ((1 + u) ^ 3) with ((1 + u) * (1 + u) ^ 2) by ring. nra. }
    assert (Y : (1 + u) * ((1 + u) ^ 6 - 1) * Rabs L <= ((1 + u) ^ 7 - 1) * Rabs L).
    { apply Rmult_le_compat_r; [exact PL|]. replace ((1 + u) ^ 7) with ((1 + u) * (1 + u) ^ 6) by ring. lra. }
    lra.
  Qed.
End Reals.

Section LineF.
  Context (prec emax : Z).
  Context (Hp : Prec_gt_0 prec) (He : Prec_lt_emax prec emax).
  Context (Hp1 : (1 < prec)%Z).
  Notation F := (binary_float prec emax).
  Notation FA := (farith prec emax Hp He).
  Notation rnd := (rnd prec emax).
  Notation emin := (3 - emax - prec)%Z.
  Notation u := (u_ro radix2 prec).
  Notation eta := (/ 2 * bpow radix2 emin).
  Notation ub := (u_bnd prec Hp1).

  Lemma fmt_opp (b : F) : generic_format radix2 (FLT_exp emin prec) (- B2R b).
  Proof. apply generic_format_opp. exact (generic_format_B2R prec emax b). Qed.
  Lemma sub_rel (a b : F) : is_finite (a_sub FA a b) = true -> within u (B2R (a_sub FA a b)) (B2R a - B2R b).
  Proof.
    intros H. destruct (minus_fin prec emax Hp He a b H) as (_ & _ & E). unfold within. rewrite E.
    pose proof (u_pos prec) as UP.
    destruct (FLT_plus_error_N_ex radix2 emin prec (fun x => negb (Z.even x)) (B2R a) (- B2R b) (generic_format_B2R prec emax a) (fmt_opp b)) as (e1 & B1 & E1).
    unfold NumF.rnd. change (SpecFloat.fexp prec emax) with (FLT_exp emin prec). fold (Rminus (B2R a) (B2R b)) in E1.
    rewrite E1. replace ((B2R a - B2R b) * (1 + e1) - (B2R a - B2R b)) with (e1 * (B2R a - B2R b)) by ring.
    rewrite Rabs_mult. apply Rmult_le_compat_r; [apply Rabs_pos|].
    eapply Rle_trans; [exact B1|].
    apply (Rmult_le_reg_r (1 + u)); [lra|]. unfold Rdiv. rewrite Rmult_assoc, Rinv_l by lra. nra.
  Qed.
  Lemma lt_R (a b : F) : is_finite a = true -> is_finite b = true -> ltb (a_cmp FA) a b = true -> B2R a < B2R b.
  Proof. intros Fa Fb H. cbn [a_cmp farith] in H. rewrite ltb_f, !f2e_finite in H by assumption. apply ltb_Fin in H. exact H. Qed.

  Lemma line_general_bound (x0 y0 x1 y1 x : F) y :
    ltb (a_cmp FA) x0 x = true -> ltb (a_cmp FA) x x1 = true ->
    is_finite (a_sub FA x1 x0) = true -> is_finite (line_general FA x0 y0 x1 y1 x) = true ->
    on_line (B2R x0) (B2R y0) (B2R x1) (B2R y1) (B2R x) y ->
    Rabs (B2R (line_general FA x0 y0 x1 y1 x) - y) <= line_err prec emax (B2R y0) y (Rabs (B2R x - B2R x0)).
  Proof.
    intros L1 L2 FD FR OL. unfold line_general in *.
    pose proof (add_rel prec emax Hp He _ _ FR) as [RA _]. destruct (plus_fin prec emax Hp He _ _ FR) as (Fy0 & FP & _).
    destruct (mult_fin prec emax Hp He _ _ FP) as (FQ & FA' & EP).
    pose proof (sub_rel _ _ FD) as WD. pose proof (sub_rel _ _ FA') as WA.
    destruct (minus_fin prec emax Hp He _ _ FD) as (Fx1 & Fx0 & _). destruct (minus_fin prec emax Hp He _ _ FA') as (Fx & _ & _).
    pose proof (lt_R _ _ Fx0 Fx L1) as R1. pose proof (lt_R _ _ Fx Fx1 L2) as R2.
    assert (ND : B2R x1 - B2R x0 <> 0) by lra.
    destruct (within_inv u ub _ _ ND WD) as [ND' _].
    destruct (div_fin prec emax Hp He _ _ FD ND' FQ) as (FN & EQ).
    pose proof (sub_rel _ _ FN) as WN.
    assert (EY : y = B2R y0 + (B2R y1 - B2R y0) * (B2R x - B2R x0) / (B2R x1 - B2R x0)).
    { unfold on_line in OL. apply (Rmult_eq_reg_r (B2R x1 - B2R x0)); [|exact ND].
      replace ((B2R y0 + (B2R y1 - B2R y0) * (B2R x - B2R x0) / (B2R x1 - B2R x0)) * (B2R x1 - B2R x0))
        with (B2R y0 * (B2R x1 - B2R x0) + (B2R y1 - B2R y0) * (B2R x - B2R x0)) by (field; exact ND). rewrite <- OL. ring. }
    unfold line_err, half_eta. replace (y - B2R y0) with ((B2R y1 - B2R y0) * (B2R x - B2R x0) / (B2R x1 - B2R x0)) by (rewrite EY; ring).
    rewrite EY. apply (line_sum u ub eta (Rabs (B2R x - B2R x0)) _ _ (B2R (a_mul FA (a_div FA (a_sub FA y1 y0) (a_sub FA x1 x0)) (a_sub FA x x0)))).
    - left. apply eta_pos.
    - apply Rabs_pos.
    - apply (line_prod u ub eta _ _ _ _ _ _ (B2R (a_div FA (a_sub FA y1 y0) (a_sub FA x1 x0))) _ (Rlt_le _ _ (eta_pos prec emax)) ND WA WD WN).
      + rewrite EQ. apply rnd_err; assumption.
      + rewrite EP. apply rnd_err; assumption.
    - exact RA.
  Qed.

  Lemma line_fast_bound (x0 y0 x1 y1 x : F) y :
    ltb (a_cmp FA) x0 x = true -> ltb (a_cmp FA) x x1 = true ->
    is_finite (a_sub FA x1 x0) = true -> is_finite (line_fast FA x0 y0 x1 y1 x) = true ->
    on_line (B2R x0) (B2R y0) (B2R x1) (B2R y1) (B2R x) y ->
    Rabs (B2R (line_fast FA x0 y0 x1 y1 x) - y) <= line_err prec emax (B2R y0) y (Rabs (B2R y1 - B2R y0)).
  Proof.
    intros L1 L2 FD FR OL. unfold line_fast in *.
    pose proof (add_rel prec emax Hp He _ _ FR) as [RA _]. destruct (plus_fin prec emax Hp He _ _ FR) as (Fy0 & FP & _).
    destruct (mult_fin prec emax Hp He _ _ FP) as (FQ & FN & EP).
    pose proof (sub_rel _ _ FD) as WD. pose proof (sub_rel _ _ FN) as WN.
    destruct (minus_fin prec emax Hp He _ _ FD) as (Fx1 & Fx0 & _).
    assert (Fx : is_finite x = true).
    { clear - L1 L2. destruct x as [s|[]| |s m e Hm]; try reflexivity; destruct x0 as [s0|[]| |s0 m0 e0 H0]; destruct x1 as [s1|[]| |s1 m1 e1 H1]; cbn in L1, L2; discriminate. }
    pose proof (lt_R _ _ Fx0 Fx L1) as R1. pose proof (lt_R _ _ Fx Fx1 L2) as R2.
    assert (ND : B2R x1 - B2R x0 <> 0) by lra.
    destruct (within_inv u ub _ _ ND WD) as [ND' _].
    destruct (div_fin prec emax Hp He _ _ FD ND' FQ) as (FA' & EQ).
    pose proof (sub_rel _ _ FA') as WA.
    assert (EY : y = B2R y0 + (B2R x - B2R x0) * (B2R y1 - B2R y0) / (B2R x1 - B2R x0)).
    { unfold on_line in OL. apply (Rmult_eq_reg_r (B2R x1 - B2R x0)); [|exact ND].
      replace ((B2R y0 + (B2R x - B2R x0) * (B2R y1 - B2R y0) / (B2R x1 - B2R x0)) * (B2R x1 - B2R x0))
        with (B2R y0 * (B2R x1 - B2R x0) + (B2R y1 - B2R y0) * (B2R x - B2R x0)) by (field; exact ND). rewrite <- OL. ring. }
    unfold line_err, half_eta. replace (y - B2R y0) with ((B2R x - B2R x0) * (B2R y1 - B2R y0) / (B2R x1 - B2R x0)) by (rewrite EY; ring).
    rewrite EY. apply (line_sum u ub eta (Rabs (B2R y1 - B2R y0)) _ _ (B2R (a_mul FA (a_div FA (a_sub FA x x0) (a_sub FA x1 x0)) (a_sub FA y1 y0)))).
    - left. apply eta_pos.
    - apply Rabs_pos.
    - apply (line_prod u ub eta _ _ _ _ _ _ (B2R (a_div FA (a_sub FA x x0) (a_sub FA x1 x0))) _ (Rlt_le _ _ (eta_pos prec emax)) ND WN WD WA).
      + rewrite EQ. apply rnd_err; assumption.
      + rewrite EP. apply rnd_err; assumption.
    - exact RA.
  Qed.

  (** ** a * d - b * c *)
  Lemma det_bound (a b c d : F) : let v := a_sub FA (a_mul FA a d) (a_mul FA b c) in is_finite v = true ->
    Rabs (B2R v - (B2R a * B2R d - B2R b * B2R c))
      <= prod2_err prec emax (B2R a * B2R d) (B2R b * B2R c).
  Proof.
    intros v H. unfold prod2_err, half_eta. cbv zeta. pose proof (sub_rel _ _ H) as RA. fold v in RA. destruct (minus_fin prec emax Hp He _ _ H) as (F1 & F2 & _).
    pose proof (near_prod prec emax Hp He Hp1 a d F1) as N1. pose proof (near_prod prec emax Hp He Hp1 b c F2) as N2. unfold near, within in *.
    pose proof ub as UB. pose proof (eta_pos prec emax) as EP.
    set (p := B2R (a_mul FA a d)) in *. set (q := B2R (a_mul FA b c)) in *. set (s := B2R a * B2R d) in *. set (t := B2R b * B2R c) in *.
    set (h := / 2 * bpow radix2 emin) in *.
    assert (A : Rabs (p - q) <= (1 + u) * (Rabs s + Rabs t) + 2 * h).
    { replace (p - q) with ((p - s) + (s + (- t + (t - q)))) by ring.
      eapply Rle_trans; [apply Rabs_triang|]. pose proof (Rabs_triang s (- t + (t - q))). pose proof (Rabs_triang (- t) (t - q)).
      rewrite Rabs_Ropp in *. rewrite (Rabs_minus_sym t q) in *. lra. }
    replace (B2R v - (s - t)) with ((B2R v - (p - q)) + ((p - s) + (- (q - t)))) by ring.
    eapply Rle_trans; [apply Rabs_triang|]. pose proof (Rabs_triang (p - s) (- (q - t))) as T. rewrite Rabs_Ropp in T.
    assert (u * Rabs (p - q) <= u * ((1 + u) * (Rabs s + Rabs t) + 2 * h)) by (apply Rmult_le_compat_l; lra).
    replace (((1 + u) ^ 2 - 1) * (Rabs s + Rabs t) + 2 * (1 + u) * h) with (u * ((1 + u) * (Rabs s + Rabs t) + 2 * h) + (u * (Rabs s + Rabs t) + 2 * h)) by ring. lra.
  Qed.

  Lemma abs_squared_bound (x y : F) : is_finite (abs_squared_complex FA (x, y)) = true ->
    Rabs (B2R (abs_squared_complex FA (x, y)) - (B2R x ^ 2 + B2R y ^ 2)) <= prod2_err prec emax (B2R x ^ 2) (B2R y ^ 2).
  Proof.
    unfold prod2_err, half_eta. rewrite !(Rabs_pos_eq (_ ^ 2)) by apply pow2_ge_0. intros H. unfold abs_squared_complex in *. cbn [fst snd] in *. pose proof (near_norm prec emax Hp He Hp1 x y H) as N. unfold near in N.
    pose proof (Rle_0_sqr (B2R x)) as Q1. pose proof (Rle_0_sqr (B2R y)) as Q2. unfold Rsqr in Q1, Q2.
    rewrite (Rabs_pos_eq (_ + _)) in N by lra.
    replace (B2R x ^ 2 + B2R y ^ 2) with (B2R x * B2R x + B2R y * B2R y) by ring. exact N.
  Qed.

  (** ** whole calls *)
  Theorem interp_general_close n mx px sx0 mxp pxp sxp0 xps mfp pfp sfp0 fps mo po so rows :
    (0 < n)%nat -> (sx0 <> 0 \/ sxp0 <> 0)%Z ->
    (forall j r, nth_error rows j = Some r -> row_ok FA n mx px sx0 mxp pxp sxp0 xps mfp pfp sfp0 fps j r) ->
    writable mo po so (length rows) ->
    exists vs,
      writes (interp_loop FA (Z.of_nat (length rows)) (Z.of_nat n) mx px sx0 mxp pxp sxp0 xps mfp pfp sfp0 fps mo po so)
        mo po so vs /\
      Forall2 (fun r v => let '(x, xs, fs) := r in interp_close prec emax Hp He (fun dx _ _ => Rabs dx) xs fs x v) rows vs.
  Proof.
    intros Hn Hs Hr W. destruct (interp_general_loop FA (Bcompare_laws prec emax) n mx px sx0 mxp pxp sxp0 xps mfp pfp sfp0 fps mo po so rows Hn Hs Hr W) as (vs & E & HF).
    exists vs. split; [exact E|]. clear - HF Hp1. induction HF as [|[[x xs] fs] v rows vs H HF IH]; constructor; [|exact IH].
    destruct H as (_ & _ & _ & H). intros k x0 x1 y0 y1 y E1 E2 E3 E4 L1 L2 FD FV OL.
    specialize (H k x0 x1 y0 y1 E1 E2 E3 E4 L1 L2). subst v. apply line_general_bound; assumption.
  Qed.
  Theorem interp_fast_close mx px mxp pxp xps mfp pfp sfp0 fps mo po so x xs fps_l :
    xs <> [] -> mx px = Some x -> view mxp pxp xps xs -> isnanb (@Bcompare prec emax) x = false -> (forall a, In a xs -> isnanb (@Bcompare prec emax) a = false) ->
    increasing (@Bcompare prec emax) xs ->
    (forall j fs, nth_error fps_l j = Some fs -> length fs = length xs /\ view mfp (pfp + Z.of_nat j * sfp0)%Z fps fs) ->
    writable mo po so (length fps_l) ->
    exists vs,
      writes (interp_loop FA (Z.of_nat (length fps_l)) (Z.of_nat (length xs)) mx px 0 mxp pxp 0 xps mfp pfp sfp0 fps mo po so)
        mo po so vs /\
      Forall2 (fun fs v => interp_close prec emax Hp He (fun _ y0 y1 => Rabs (y1 - y0)) xs fs x v) fps_l vs.
  Proof.
    intros Hne Ex Vx Nx Nn Inc Hr W.
    destruct (interp_fast_loop FA (Bcompare_laws prec emax) mx px mxp pxp xps mfp pfp sfp0 fps mo po so x xs fps_l Hne Ex Vx Nx Nn Inc Hr W) as (vs & E & HF).
    exists vs. split; [exact E|]. clear - HF Hp1. induction HF as [|fs v rows vs H HF IH]; constructor; [|exact IH].
    destruct H as (_ & _ & _ & H). intros k x0 x1 y0 y1 y E1 E2 E3 E4 L1 L2 FD FV OL.
    specialize (H k x0 x1 y0 y1 E1 E2 E3 E4 L1 L2). subst v. apply line_fast_bound; assumption.
  Qed.

  (** the two paths on the same data *)
  Theorem interp_paths_close mx px mxp pxp xps mfp pfp sfp0 fps mo po so x xs fps_l mx' px' sx0' mxp' pxp' sxp0' xps' mo' po' so' :
    xs <> [] -> mx px = Some x -> view mxp pxp xps xs -> isnanb (@Bcompare prec emax) x = false -> (forall a, In a xs -> isnanb (@Bcompare prec emax) a = false) ->
    increasing (@Bcompare prec emax) xs ->
    (forall j fs, nth_error fps_l j = Some fs -> length fs = length xs /\ view mfp (pfp + Z.of_nat j * sfp0)%Z fps fs) ->
    writable mo po so (length fps_l) ->
    (sx0' <> 0 \/ sxp0' <> 0)%Z ->
    (forall j fs, nth_error fps_l j = Some fs -> mx' (px' + Z.of_nat j * sx0')%Z = Some x /\ view mxp' (pxp' + Z.of_nat j * sxp0')%Z xps' xs) ->
    writable mo' po' so' (length fps_l) ->
    exists vs ws,
      writes (interp_loop FA (Z.of_nat (length fps_l)) (Z.of_nat (length xs)) mx px 0 mxp pxp 0 xps mfp pfp sfp0 fps mo po so) mo po so vs /\
      writes (interp_loop FA (Z.of_nat (length fps_l)) (Z.of_nat (length xs)) mx' px' sx0' mxp' pxp' sxp0' xps' mfp pfp sfp0 fps mo' po' so') mo' po' so' ws /\
      forall j fs v w, nth_error fps_l j = Some fs -> nth_error vs j = Some v -> nth_error ws j = Some w ->
        forall k x0 x1 y0 y1 y,
        nth_error xs k = Some x0 -> nth_error xs (k + 1) = Some x1 ->
        nth_error fs k = Some y0 -> nth_error fs (k + 1) = Some y1 ->
        ltb (@Bcompare prec emax) x0 x = true -> ltb (@Bcompare prec emax) x x1 = true ->
        is_finite (Bminus mode_NE x1 x0) = true -> is_finite v = true -> is_finite w = true ->
        on_line (B2R x0) (B2R y0) (B2R x1) (B2R y1) (B2R x) y ->
        Rabs (B2R v - B2R w) <= line_err prec emax (B2R y0) y (Rabs (B2R y1 - B2R y0)) + line_err prec emax (B2R y0) y (Rabs (B2R x - B2R x0)).
  Proof.
    intros Hne Ex Vx Nx Nn Inc Hr W Hs Hr' W'.
    destruct (interp_fast_close mx px mxp pxp xps mfp pfp sfp0 fps mo po so x xs fps_l Hne Ex Vx Nx Nn Inc Hr W) as (vs & E1 & F1).
    destruct (interp_general_close (length xs) mx' px' sx0' mxp' pxp' sxp0' xps' mfp pfp sfp0 fps mo' po' so' (map (fun fs => (x, xs, fs)) fps_l)) as (ws & E2 & F2).
    - destruct xs; [congruence|cbn; lia].
    - exact Hs.
    - intros j r E. rewrite nth_error_map in E. destruct (nth_error fps_l j) as [fs|] eqn:Ef; [|discriminate E]. injection E as <-.
      destruct (Hr j fs Ef) as [L V]. destruct (Hr' j fs Ef) as [X VX]. repeat split; assumption.
    - rewrite map_length. exact W'.
    - rewrite map_length in E2. exists vs, ws. split; [exact E1|]. split; [exact E2|].
      intros j fs v w Ej Ev Ew k x0 x1 y0 y1 y K1 K2 K3 K4 L1 L2 FD FV FW OL.
      assert (C1 : interp_close prec emax Hp He (fun _ y0 y1 => Rabs (y1 - y0)) xs fs x v).
      { clear - F1 Ej Ev. revert j Ej Ev. induction F1 as [|a b la lb H F IH]; intros [|j] Ej Ev; cbn in Ej, Ev; try discriminate; [injection Ej as <-; injection Ev as <-; exact H|exact (IH j Ej Ev)]. }
      assert (C2 : interp_close prec emax Hp He (fun dx _ _ => Rabs dx) xs fs x w).
      { clear - F2 Ej Ew. remember (map (fun fs => (x, xs, fs)) fps_l) as rows eqn:Er. revert j fps_l Er Ej Ew. induction F2 as [|[[a b] c] d la lb H F IH]; intros [|j] l Er Ej Ew; cbn in Ew; try discriminate;
          destruct l as [|f l]; cbn in Er; try discriminate; injection Er as -> -> -> Er; cbn in Ej.
        - injection Ej as <-. injection Ew as <-. exact H.
        - exact (IH j l Er Ej Ew). }
      pose proof (C1 k x0 x1 y0 y1 y K1 K2 K3 K4 L1 L2 FD FV OL) as B1. pose proof (C2 k x0 x1 y0 y1 y K1 K2 K3 K4 L1 L2 FD FW OL) as B2.
      replace (B2R v - B2R w) with ((B2R v - y) + - (B2R w - y)) by ring. eapply Rle_trans; [apply Rabs_triang|]. rewrite Rabs_Ropp. lra.
  Qed.

  Theorem cross3_close mu pu su mv pv sv mo po so (u0 u1 u2 v0 v1 v2 : F) :
    view mu pu su [u0; u1; u2] -> view mv pv sv [v0; v1; v2] -> writable mo po so 3 ->
    exists w0 w1 w2,
      writes (cross3_core_calc (f_mul FA) (f_sub FA) mu pu su mv pv sv mo po so) mo po so [w0; w1; w2] /\
      (is_finite w0 = true -> Rabs (B2R w0 - (B2R u1 * B2R v2 - B2R u2 * B2R v1)) <= prod2_err prec emax (B2R u1 * B2R v2) (B2R u2 * B2R v1)) /\
      (is_finite w1 = true -> Rabs (B2R w1 - (B2R u2 * B2R v0 - B2R u0 * B2R v2)) <= prod2_err prec emax (B2R u2 * B2R v0) (B2R u0 * B2R v2)) /\
      (is_finite w2 = true -> Rabs (B2R w2 - (B2R u0 * B2R v1 - B2R u1 * B2R v0)) <= prod2_err prec emax (B2R u0 * B2R v1) (B2R u1 * B2R v0)).
  Proof.
    intros U V W. do 3 eexists. split; [exact (cross3_arith FA mu pu su mv pv sv mo po so u0 u1 u2 v0 v1 v2 U V W)|].
    repeat split; intros H; apply det_bound; exact H.
  Qed.
  Theorem cross2_close mu pu su mv pv sv mo po (u0 u1 v0 v1 : F) :
    view mu pu su [u0; u1] -> view mv pv sv [v0; v1] -> mo po <> None ->
    exists w,
      writes (cross2_core_calc (f_mul FA) (f_sub FA) mu pu su mv pv sv mo po) mo po 0 [w] /\
      (is_finite w = true -> Rabs (B2R w - (B2R u0 * B2R v1 - B2R u1 * B2R v0)) <= prod2_err prec emax (B2R u0 * B2R v1) (B2R u1 * B2R v0)).
  Proof.
    intros U V W. eexists. split; [exact (cross2_arith FA mu pu su mv pv sv mo po u0 u1 v0 v1 U V W)|].
    intros H; apply det_bound; exact H.
  Qed.

  Theorem abssq_complex_close sz mi pi si (x : list (F * F)) mo po so :
    cview mi pi si sz x -> writable mo po so (length x) ->
    exists vs, writes (abssq_complex_loop FA sz (Z.of_nat (length x)) mi pi si mo po so) mo po so vs /\
      Forall2 (fun z v => is_finite v = true ->
        Rabs (B2R v - (B2R (fst z) ^ 2 + B2R (snd z) ^ 2)) <= prod2_err prec emax (B2R (fst z) ^ 2) (B2R (snd z) ^ 2)) x vs.
  Proof.
    intros V W. exists (map (abs_squared_complex FA) x). split; [exact (abssq_complex_correct FA sz mi pi si x mo po so V W)|].
    clear - Hp1. induction x as [|[a b] x IH]; constructor; [|exact IH]. exact (abs_squared_bound a b).
  Qed.
  Theorem abssq_real_close sz mi pi si (x : list F) mo po so :
    view mi pi si x -> writable mo po so (length x) ->
    exists vs, writes (abssq_real_loop FA sz (Z.of_nat (length x)) mi pi si mo po so) mo po so vs /\
      Forall2 (fun a v => is_finite v = true -> Rabs (B2R v - B2R a ^ 2) <= u * B2R a ^ 2 + half_eta prec emax) x vs.
  Proof.
    intros V W. exists (map (fun v => a_mul FA v v) x). split; [exact (abssq_real_correct FA sz mi pi si x mo po so V W)|].
    clear - Hp1. induction x as [|a x IH]; constructor; [|exact IH]. intros H.
    pose proof (near_prod prec emax Hp He Hp1 a a H) as N. unfold near in N. pose proof (Rle_0_sqr (B2R a)) as Q. unfold Rsqr in Q.
    rewrite (Rabs_pos_eq (B2R a * B2R a)) in N by exact Q. replace (B2R a ^ 2) with (B2R a * B2R a) by ring. exact N.
  Qed.
End LineF.

(** ** a node distance that overflows *)
Lemma interp_overflow : exists a b y0 y1 x : f64, is_finite a = true /\ is_finite b = true /\ is_finite x = true /\
  on_line (B2R a) (B2R y0) (B2R b) (B2R y1) (B2R x) (B2R (f64_ofZ 4)) /\
  (forall sx, In sx [0; 8]%Z ->
    f64_outs 1 (interp_loop f64_arith 1 2 (mem_of 0 8 [x]) 0 sx (mem_of 0 8 [a; b]) 0 0 8 (mem_of 0 8 [y0; y1]) 0 0 8 (mem_of 0 8 [x]) 0 8)
      = Some [Some (B2SF (f64_ofZ 0))]).
Proof.
  assert (E4 : B2R (f64_ofZ 4) = 4).
  { rewrite <- SF2R_B2SF. replace (B2SF (f64_ofZ 4)) with (S754_finite false 4503599627370496 (-50)) by (vm_compute; reflexivity). unfold SF2R, F2R. simpl. lra. }
  assert (E8 : B2R (f64_ofZ 8) = 8).
  { rewrite <- SF2R_B2SF. replace (B2SF (f64_ofZ 8)) with (S754_finite false 4503599627370496 (-49)) by (vm_compute; reflexivity). unfold SF2R, F2R. simpl. lra. }
  assert (E0 : B2R (f64_ofZ 0) = 0).
  { rewrite <- SF2R_B2SF. replace (B2SF (f64_ofZ 0)) with (S754_zero false) by (vm_compute; reflexivity). reflexivity. }
  exists (Bopp (f64_ofZ (2 ^ 1023))), (f64_ofZ (2 ^ 1023)), (f64_ofZ 0), (f64_ofZ 8), (f64_ofZ 0).
  split; [vm_compute; reflexivity|]. split; [vm_compute; reflexivity|]. split; [vm_compute; reflexivity|]. split.
  - unfold on_line. rewrite B2R_Bopp, E4, E8, E0. ring.
  - intros sx [<-|[<-|[]]]; vm_compute; reflexivity.
Qed.
