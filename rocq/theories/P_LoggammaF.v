(** * P_LoggammaF: loggamma1p in IEEE double: rounding errors (C51) *)
From Coq Require Import ZArith Reals List Bool Lia Lra QArith.QArith_base QArith.Qreals QArith.Qabs.
From Flocq Require Import Core BinarySingleNaN Relative.
From Verif Require Import CSem CSemP Num NumP NumF M_Log1p S_Log1p P_Log1p P_Log1pF M_Special S_Special S_Gamma P_Gamma P_ErfcxT P_LanczosC P_Lanczos P_LoggammaC P_Loggamma P_LoggammaM.
From Verif Require Import P_ZStrict P_SpecialF P_ExpintF P_LogFactF.
Import ListNotations.
Open Scope R_scope.

(** ** coefficients: decidable bounds *)
Definition litq (p : Z * Z) : Q := Qmake (fst p) (Z.to_pos (10 ^ (- snd p))).
Lemma litq_val p : (snd p <= 0)%Z -> Q2R (litq p) = litv p.
Proof.
  intros H. unfold Q2R, litq, litv. cbn [Qnum Qden]. rewrite Z2Pos.id by (apply Z.pow_pos_nonneg; lia). rewrite pow10_Z by lia. f_equal.
  rewrite <- powerRZ_neg' . now rewrite Z.opp_involutive.
Qed.
Definition coef_ok (p : Z * Z) : bool := (snd p <=? 0)%Z && Qle_bool (Qmake 1 (2 ^ 20)) (litq p) && Qle_bool (litq p) (Qmake (2 ^ 40) 1).
Lemma coef_spec p : coef_ok p = true -> pow2 (-20) <= litv p <= pow2 40.
Proof.
  unfold coef_ok. intros H. apply andb_prop in H. destruct H as [H C]. apply andb_prop in H. destruct H as [A B]. apply Z.leb_le in A. apply Qle_bool_iff in B, C. apply Qle_Rle in B, C.
  rewrite litq_val in B, C by exact A. split.
  - eapply Rle_trans; [|exact B]. unfold Q2R. cbn [Qnum Qden]. change (pow2 (-20)) with (/ IZR (Z.pos (2 ^ 20))). lra.
  - eapply Rle_trans; [exact C|]. unfold Q2R. cbn [Qnum Qden]. change (pow2 40) with (IZR (2 ^ 40)). rewrite Rinv_1. lra.
Qed.

Lemma u_le : 0 < u <= / 10 ^ 15. Proof. unfold u; cbn [pow]; lra. Qed.
Lemma eta_le V : pow2 (-100) <= V -> 0 < eta <= u / 10 ^ 6 * V.
Proof.
  intros H. split; [apply eta_small|]. apply Rle_trans with (u / 10 ^ 6 * pow2 (-100)); [|apply Rmult_le_compat_l; [unfold u; cbn [pow]; lra|exact H]].
  unfold eta. apply Rle_trans with (pow2 (-300)); [apply bpow_le; lia|]. rewrite <- u_pow. apply Rle_trans with (pow2 (-30) * pow2 (-53) * pow2 (-100)).
  - rewrite <- !bpow_plus. apply bpow_le. lia.
  - apply Rmult_le_compat_r; [apply bpow_ge_0|]. change (pow2 (-30)) with (/ 1073741824). cbn [pow]. assert (0 < pow2 (-53)) by apply bpow_gt_0. lra.
Qed.
(** one step of a Horner scheme with nonnegative terms *)
Lemma hstep p W c e : 0 <= W -> 0 <= c -> 0 <= e <= 1 / 10 ^ 6 -> Rabs (p - W) <= e * W -> pow2 (-100) <= W + c ->
  Rabs (rn (rn p + rn c) - (W + c)) <= (e + 2005 / 1000 * u) * (W + c).
Proof.
  intros HW Hc He HP HV. pose proof u_le as UU. pose proof (eta_le _ HV) as ET. pose proof (rerr p) as R1. pose proof (rerr c) as R2. pose proof (rerr (rn p + rn c)) as R3.
  rewrite (Rabs_pos_eq c) in R2 by exact Hc.
  assert (EW : 0 <= e * W <= 1 / 10 ^ 6 * W) by (split; [apply Rmult_le_pos; lra|apply Rmult_le_compat_r; lra]).
  assert (EC : 0 <= e * c) by (apply Rmult_le_pos; lra).
  assert (AP : Rabs p <= W + e * W) by (replace p with ((p - W) + W) by ring; eapply Rle_trans; [apply Rabs_triang|]; rewrite (Rabs_pos_eq W) by lra; lra).
  assert (UP : u * Rabs p <= u * (W + e * W)) by (apply Rmult_le_compat_l; lra).
  assert (UW : 0 <= u * W <= / 10 ^ 15 * W) by (split; [apply Rmult_le_pos; lra|apply Rmult_le_compat_r; lra]).
  assert (UC : 0 <= u * c <= / 10 ^ 15 * c) by (split; [apply Rmult_le_pos; lra|apply Rmult_le_compat_r; lra]).
  assert (UEW : 0 <= u * (e * W) <= u * (1 / 10 ^ 6 * W)) by (split; [apply Rmult_le_pos; lra|apply Rmult_le_compat_l; lra]).
  assert (E1 : Rabs (rn p + rn c - (W + c)) <= e * W + u * (W + e * W) + u * c + 2 * eta).
  { replace (rn p + rn c - (W + c)) with ((rn p - p) + ((p - W) + (rn c - c))) by ring. eapply Rle_trans; [apply Rabs_triang|]. pose proof (Rabs_triang (p - W) (rn c - c)). lra. }
  assert (S1 : Rabs (rn p + rn c) <= (W + c) + (e * W + u * (W + e * W) + u * c + 2 * eta)).
  { replace (rn p + rn c) with ((rn p + rn c - (W + c)) + (W + c)) by ring. eapply Rle_trans; [apply Rabs_triang|]. rewrite (Rabs_pos_eq (W + c)) by lra. lra. }
  assert (S2 : Rabs (rn p + rn c) <= (W + c) * (1 + 3 / 10 ^ 6)) by (cbn [pow] in *; lra).
  assert (S3 : u * Rabs (rn p + rn c) <= u * ((W + c) * (1 + 3 / 10 ^ 6))) by (apply Rmult_le_compat_l; lra).
  replace (rn (rn p + rn c) - (W + c)) with ((rn (rn p + rn c) - (rn p + rn c)) + (rn p + rn c - (W + c))) by ring.
  eapply Rle_trans; [apply Rabs_triang|]. cbn [pow] in *. lra.
Qed.

Section Sum.
  Variables (fx : f64) (X Y : R).
  Hypothesis HY : 0 < Y.
  Hypothesis HX : Rabs (X - Y) <= 1001 / 1000 * u * Y.
  Lemma step_e n : (n <= 1000)%nat -> 0 <= 301 / 100 * INR n * u <= 1 / 10 ^ 7 .
  Proof. intros H. pose proof (pos_INR n). apply le_INR in H. replace (INR 1000) with 1000 in H by (rewrite INR_IZR_INZ; reflexivity).
    assert (0 <= INR n * u <= 1000 * u) by (split; [apply Rmult_le_pos; [lra|left; apply u_le]|apply Rmult_le_compat_r; [left; apply u_le|lra]]). unfold u in *. cbn [pow] in *. lra. Qed.
  Lemma horner_mul_ieee l : rep 3 fx X -> forallb coef_ok l = true -> (length l <= 200)%nat ->
    exists v, rep (40 + 4 * Z.of_nat (length l)) (horner_mul f64_arith fx (map (litp f64_lit) l)) v /\ Rabs (v - polyL Y l) <= 301 / 100 * INR (length l) * u * polyL Y l /\ 0 <= polyL Y l /\ (l <> [] -> pow2 (-20) <= polyL Y l).
  Proof.
    intros RX. unfold horner_mul. rewrite <- fold_left_rev_right, rev_involutive. induction l as [|p l IH]; intros H LN.
    - exists 0. cbn [map fold_right polyL length]. rewrite Rminus_0_r, Rabs_R0. split; [apply (rep_weaken 0); [lia|]; apply rep_ofZ; lia|]. split; [lra|]. split; [lra|congruence].
    - cbn [forallb] in H. apply andb_prop in H. destruct H as [H1 H2]. cbn [length] in LN. destruct (IH H2 ltac:(lia)) as (v & RV & EV & P & _). clear IH. apply coef_spec in H1.
      cbn [map fold_right polyL length]. set (c := litv p) in *. assert (P20 : 0 < pow2 (-20)) by apply bpow_gt_0.
      assert (RC : rep 40 (litp f64_lit p) (rn c)). { apply (lit_rep (fst p) (snd p)); [lia|]. change (Rabs c <= pow2 40). rewrite Rabs_pos_eq by lra. apply H1. }
      pose proof (rep_mul _ _ _ _ _ _ RV RX ltac:(lia)) as RM. pose proof (rep_add _ _ _ _ _ _ RM RC ltac:(lia)) as RA.
      exists (rn (rn (v * X) + rn c)). split; [revert RA; apply rep_weaken; lia|].
      set (n := length l) in *. set (L := polyL Y l) in *. pose proof (step_e n ltac:(lia)) as SE. pose proof u_le as UU.
      assert (YL : 0 <= L * Y) by (apply Rmult_le_pos; lra).
      pose proof (relmul v L (301 / 100 * INR n * u) X Y (1001 / 1000 * u) P ltac:(lra) ltac:(lra) ltac:(lra) EV HX) as RL.
      assert (Q : 301 / 100 * INR n * u * (1001 / 1000 * u) <= 1 / 10 ^ 7 * (1001 / 1000 * u)) by (apply Rmult_le_compat_r; lra).
      assert (Q0 : 0 <= 301 / 100 * INR n * u * (1001 / 1000 * u)) by (apply Rmult_le_pos; lra).
      assert (P100 : pow2 (-100) <= pow2 (-20)) by (apply bpow_le; lia).
      match type of RL with _ <= ?e * _ => set (e0 := e) in * end. assert (B0 : 0 <= e0 <= 1 / 10 ^ 6) by (unfold e0; split; [|cbn [pow] in *]; lra).
      pose proof (hstep (v * X) (L * Y) c e0 YL ltac:(lra) B0 RL ltac:(lra)) as ST. unfold e0 in ST.
      replace (c + Y * L) with (L * Y + c) by ring. split; [|split; [lra|intros _; lra]].
      eapply Rle_trans; [exact ST|]. apply Rmult_le_compat_r; [lra|]. rewrite S_INR. cbn [pow] in *. lra.
  Qed.
  (** ascending powers of 1/x *)
  Fixpoint hdiv (y v : R) (l : list (Z * Z)) : R := match l with [] => v | p :: l' => hdiv y (v / y + litv p) l' end.
  Lemma hdiv_poly l v : hdiv Y v l * Y ^ length l = v + Y * polyL Y l.
  Proof.
    revert v. induction l as [|p l IH]; intros v; cbn [hdiv polyL length pow]; [ring|]. rewrite <- Rmult_assoc, (Rmult_comm _ Y), Rmult_assoc, IH. field. lra.
  Qed.
  Lemma horner_div_ieee l : forall fv v V n, 4 <= X -> rep 1024 fx X -> (forallb coef_ok l = true) -> (n + length l <= 200)%nat ->
    rep (40 + Z.of_nat n) fv v -> Rabs (v - V) <= 301 / 100 * INR n * u * V -> 0 <= V -> pow2 (-20) <= V \/ l <> [] ->
    exists w, rep (40 + Z.of_nat (n + length l)) (fold_left (fun v ci => a_add f64_arith (a_div f64_arith v fx) ci) (map (litp f64_lit) l) fv) w /\
      Rabs (w - hdiv Y V l) <= 301 / 100 * INR (n + length l) * u * hdiv Y V l /\ pow2 (-20) <= hdiv Y V l.
  Proof.
    induction l as [|p l IH]; intros fv v V n X4 RX H LN RV EV P NE.
    - cbn [map fold_left hdiv length]. rewrite Nat.add_0_r. exists v. split; [exact RV|]. split; [exact EV|]. destruct NE as [NE|NE]; [exact NE|congruence].
    - cbn [forallb] in H. apply andb_prop in H. destruct H as [H1 H2]. cbn [length] in LN |- *. apply coef_spec in H1. cbn [map fold_left hdiv]. set (c := litv p) in *.
      assert (P20 : 0 < pow2 (-20)) by apply bpow_gt_0. pose proof (step_e n ltac:(lia)) as SE. pose proof u_le as UU.
      assert (RC : rep 40 (litp f64_lit p) (rn c)). { apply (lit_rep (fst p) (snd p)); [lia|]. change (Rabs c <= pow2 40). rewrite Rabs_pos_eq by lra. apply H1. }
      assert (DX : Rabs (v / X) <= pow2 (40 + Z.of_nat n)). { destruct RV as (_ & _ & B). unfold Rdiv. rewrite Rabs_mult, (Rabs_pos_eq (/ X)) by (left; apply Rinv_0_lt_compat; lra).
        apply Rle_trans with (Rabs v * 1); [|lra]. apply Rmult_le_compat_l; [apply Rabs_pos|]. rewrite <- Rinv_1. apply Rinv_le_contravar; lra. }
      pose proof (rep_div _ _ _ _ _ _ RV RX ltac:(lra) DX ltac:(lia)) as RD. pose proof (rep_add _ _ _ _ _ _ RD RC ltac:(lia)) as RA.
      destruct (relinv X Y (1001 / 1000 * u) HY ltac:(cbn [pow] in UU; lra) HX) as [XP EI].
      assert (IY : 0 < 1 / Y) by (unfold Rdiv; rewrite Rmult_1_l; now apply Rinv_0_lt_compat).
      pose proof (relmul v V (301 / 100 * INR n * u) (1 / X) (1 / Y) (1002 / 1000 * (1001 / 1000 * u)) P ltac:(lra) ltac:(lra) ltac:(lra) EV EI) as RL.
      replace (v * (1 / X)) with (v / X) in RL by (field; lra). replace (V * (1 / Y)) with (V / Y) in RL by (field; lra).
      assert (VY : 0 <= V / Y) by (apply Rmult_le_pos; [exact P|left; now apply Rinv_0_lt_compat]).
      assert (Q : 301 / 100 * INR n * u * (1002 / 1000 * (1001 / 1000 * u)) <= 1 / 10 ^ 7 * (1002 / 1000 * (1001 / 1000 * u))) by (apply Rmult_le_compat_r; lra).
      assert (Q0 : 0 <= 301 / 100 * INR n * u * (1002 / 1000 * (1001 / 1000 * u))) by (apply Rmult_le_pos; lra).
      assert (P100 : pow2 (-100) <= pow2 (-20)) by (apply bpow_le; lia).
      match type of RL with _ <= ?e * _ => set (e0 := e) in * end. assert (B0 : 0 <= e0 <= 1 / 10 ^ 6) by (unfold e0; split; [|cbn [pow] in *]; lra).
      pose proof (hstep (v / X) (V / Y) c e0 VY ltac:(lra) B0 RL ltac:(lra)) as ST. unfold e0 in ST.
      replace (n + S (length l))%nat with (S n + length l)%nat by lia.
      apply (IH _ (rn (rn (v / X) + rn c)) (V / Y + c) (S n) X4 RX H2 ltac:(lia)).
      + revert RA. apply rep_weaken. lia.
      + eapply Rle_trans; [exact ST|]. apply Rmult_le_compat_r; [lra|]. rewrite S_INR. cbn [pow] in *. lra.
      + lra.
      + left. lra.
  Qed.
End Sum.

(** ** the quotient of Lanczos' polynomials *)
Lemma ratio_ieee fn fd n d N D : rep 92 fn n -> rep 92 fd d -> pow2 (-20) <= N -> pow2 (-75) <= D -> Rabs (n - N) <= 392 / 10 * u * N -> Rabs (d - D) <= 392 / 10 * u * D ->
  exists s, rep 200 (a_div f64_arith fn fd) s /\ Rabs (s - N / D) <= 80 * u * (N / D) /\ pow2 (-140) <= N / D <= pow2 200.
Proof.
  intros RN RD HN HD EN ED. pose proof u_le as UU. assert (P20 : 0 < pow2 (-20)) by apply bpow_gt_0. assert (P75 : 0 < pow2 (-75)) by apply bpow_gt_0.
  destruct (relinv d D (392 / 10 * u) ltac:(lra) ltac:(cbn [pow] in UU; lra) ED) as [DP EI].
  assert (ID : 0 < 1 / D) by (unfold Rdiv; rewrite Rmult_1_l; apply Rinv_0_lt_compat; lra).
  pose proof (relmul n N (392 / 10 * u) (1 / d) (1 / D) (1002 / 1000 * (392 / 10 * u)) ltac:(lra) ltac:(lra) ltac:(lra) ltac:(lra) EN EI) as RL.
  replace (n * (1 / d)) with (n / d) in RL by (field; lra). replace (N * (1 / D)) with (N / D) in RL by (field; lra).
  assert (U2 : 0 <= u * u <= / 10 ^ 15 * u) by (split; [apply Rmult_le_pos; lra|apply Rmult_le_compat_r; lra]).
  assert (NB : N <= pow2 93). { destruct RN as (_ & _ & B). apply Rabs_le_inv in B. apply Rabs_le_inv in EN. assert (u * N <= / 10 ^ 15 * N) by (apply Rmult_le_compat_r; lra).
    assert (pow2 93 = 2 * pow2 92) by (exact (pow2_double 92)). cbn [pow] in *. lra. }
  assert (DB : D <= pow2 93). { destruct RD as (_ & _ & B). apply Rabs_le_inv in B. apply Rabs_le_inv in ED. assert (u * D <= / 10 ^ 15 * D) by (apply Rmult_le_compat_r; lra).
    assert (pow2 93 = 2 * pow2 92) by (exact (pow2_double 92)). cbn [pow] in *. lra. }
  assert (LO : pow2 (-140) <= N / D). { apply Rle_trans with (pow2 (-20) * / pow2 93).
    - rewrite <- bpow_opp, <- bpow_plus. apply bpow_le. lia.
    - apply Rmult_le_compat; [lra|left; apply Rinv_0_lt_compat, bpow_gt_0|lra|apply Rinv_le_contravar; lra]. }
  assert (HI : N / D <= pow2 168). { apply Rle_trans with (pow2 93 * / pow2 (-75)).
    - apply Rmult_le_compat; [lra|left; apply Rinv_0_lt_compat; lra|lra|apply Rinv_le_contravar; lra].
    - rewrite <- bpow_opp, <- bpow_plus. apply bpow_le. lia. }
  assert (P140 : 0 < pow2 (-140)) by apply bpow_gt_0. set (R := N / D) in *. clearbody R.
  assert (EV : Rabs (n / d - R) <= 785 / 10 * u * R) by (eapply Rle_trans; [exact RL|]; apply Rmult_le_compat_r; [lra|cbn [pow] in *; lra]).
  assert (UR : 0 <= u * R <= / 10 ^ 15 * R) by (split; [apply Rmult_le_pos; lra|apply Rmult_le_compat_r; lra]).
  assert (B169 : pow2 169 = 2 * pow2 168) by exact (pow2_double 168). assert (B200 : pow2 169 <= pow2 200) by (apply bpow_le; lia).
  assert (AB : Rabs (n / d) <= pow2 200). { apply Rabs_le. apply Rabs_le_inv in EV. cbn [pow] in *. lra. }
  exists (rn (n / d)). split; [apply (rep_div 200 92 _ _ _ _ (rep_weaken 92 200 fn n ltac:(lia) RN) RD); [lra|exact AB|lia]|]. split; [|lra].
  eapply Rle_trans; [apply (rnrel (n / d) R (785 / 10 * u)); [|cbn [pow] in *; lra|exact EV]|].
  - apply Rle_trans with (pow2 (-140)); [apply bpow_le; lia|exact LO].
  - apply Rmult_le_compat_r; [lra|]. cbn [pow] in *. lra.
Qed.
Lemma horner_mul_cons fx c l : horner_mul f64_arith fx (c :: l) = a_add f64_arith (a_mul f64_arith (horner_mul f64_arith fx l) fx) c.
Proof. unfold horner_mul. rewrite <- !fold_left_rev_right, !rev_involutive. reflexivity. Qed.
Lemma lit0 : rep 0 (litp f64_lit (0, 0)%Z) 0.
Proof. pose proof (lit_rep 0 0 0 ltac:(lia)) as H. rewrite Rmult_0_l in H. rewrite rn_0 in H. apply H. rewrite Rabs_R0. apply bpow_ge_0. Qed.
Definition den_tail : list (Z * Z) := tl lanczos_den_coeffs.
Lemma den_cons : lanczos_den_coeffs = (0, 0)%Z :: den_tail. Proof. reflexivity. Qed.
Lemma coefs_ok : forallb coef_ok lanczos_num_coeffs = true /\ forallb coef_ok den_tail = true.
Proof. split; vm_compute; reflexivity. Qed.
Lemma lens : length lanczos_num_coeffs = 13%nat /\ length den_tail = 12%nat. Proof. split; reflexivity. Qed.
Local Opaque lanczos_num_coeffs den_tail.
Lemma lanczos_ieee (fy : f64) Y : is_finite fy = true -> pow2 (-53) <= Y -> Rabs (B2R fy - Y) <= 1001 / 1000 * u * Y ->
  exists s, rep 200 (lanczos_sum f64_arith f64_lit fy) s /\ Rabs (s - nE Y / dD Y) <= 80 * u * (nE Y / dD Y) /\ pow2 (-140) <= nE Y / dD Y <= pow2 200.
Proof.
  intros F HY HX. set (X := B2R fy) in *. assert (P53 : 0 < pow2 (-53)) by apply bpow_gt_0. pose proof u_le as UU. destruct coefs_ok as [CN CD]. destruct lens as [LN LD].
  assert (RX : rep 1024 fy X) by exact (fin_rep fy F).
  assert (UY : 0 <= u * Y <= / 10 ^ 15 * Y) by (split; [apply Rmult_le_pos; lra|apply Rmult_le_compat_r; lra]). assert (XB := HX). apply Rabs_le_inv in XB. assert (XP : 0 < X) by (cbn [pow] in *; lra).
  pose proof (rep_ltb 1024 3 fy _ _ _ RX (rep_ofZ 5 3 ltac:(lia) ltac:(lia))) as LT.
  assert (P20 : 0 < pow2 (-20)) by apply bpow_gt_0. assert (P100 : pow2 (-100) <= pow2 (-20)) by (apply bpow_le; lia).
  unfold lanczos_sum. destruct (ltb (a_cmp f64_arith) fy (a_ofZ f64_arith 5)) eqn:C.
  - apply proj1 in LT. specialize (LT eq_refl). assert (R3 : rep 3 fy X) by (apply (rep_tight 1024); [exact RX|rewrite Rabs_pos_eq by lra; change (pow2 3) with 8; lra]).
    destruct (horner_mul_ieee fy X Y ltac:(lra) HX _ R3 CN ltac:(lia)) as (n & RN & EN & _ & LB). specialize (LB ltac:(intros E; rewrite E in LN; discriminate)).
    destruct (horner_mul_ieee fy X Y ltac:(lra) HX _ R3 CD ltac:(lia)) as (t & RT & ET & T0 & TB). specialize (TB ltac:(intros E; rewrite E in LD; discriminate)).
    fold (nE Y) in EN, LB. rewrite LN in *. rewrite LD in *. rewrite <- den_val, den_cons. cbn [map]. rewrite horner_mul_cons. cbn [polyL]. set (L := polyL Y den_tail) in *.
    pose proof (rep_mul _ _ _ _ _ _ RT R3 ltac:(lia)) as RM. pose proof (rep_add _ _ _ _ _ _ RM lit0 ltac:(lia)) as RA. cbn in RA.
    replace (INR 12) with 12 in ET by (rewrite INR_IZR_INZ; reflexivity). replace (INR 13) with 13 in EN by (rewrite INR_IZR_INZ; reflexivity).
    pose proof (relmul t L (301 / 100 * 12 * u) X Y (1001 / 1000 * u) T0 ltac:(lra) ltac:(lra) ltac:(lra) ET HX) as RL.
    assert (U2 : 0 <= u * u <= / 10 ^ 15 * u) by (split; [apply Rmult_le_pos; lra|apply Rmult_le_compat_r; lra]).
    assert (LY0 : pow2 (-75) <= L * Y). { apply Rle_trans with (pow2 (-20) * pow2 (-53)); [rewrite <- bpow_plus; apply bpow_le; lia|apply Rmult_le_compat; lra]. }
    assert (P75 : 0 < pow2 (-75)) by apply bpow_gt_0. assert (P75' : pow2 (-100) <= pow2 (-75)) by (apply bpow_le; lia).
    match type of RL with _ <= ?e * _ => set (e0 := e) in * end. assert (B0 : 0 <= e0 <= 1 / 10 ^ 6) by (unfold e0; cbn [pow] in *; lra).
    pose proof (hstep (t * X) (L * Y) 0 e0 ltac:(lra) ltac:(lra) B0 RL ltac:(lra)) as ST. rewrite rn_0, !Rplus_0_r in ST.
    apply (ratio_ieee _ _ n (rn (rn (t * X) + 0))).
    + exact RN.
    + exact RA.
    + exact LB.
    + replace (litv (0, 0)%Z + Y * L) with (L * Y) by (unfold litv; cbn [fst snd]; ring). exact LY0.
    + eapply Rle_trans; [exact EN|]. apply Rmult_le_compat_r; [lra|]. lra.
    + replace (litv (0, 0)%Z + Y * L) with (L * Y) by (unfold litv; cbn [fst snd]; ring). rewrite Rplus_0_r. eapply Rle_trans; [exact ST|]. apply Rmult_le_compat_r; [lra|]. unfold e0. cbn [pow] in *. lra.
  - assert (X5 : 5 <= X) by (destruct (Rlt_dec X 5) as [G|G]; [apply LT in G; discriminate|lra]).
    assert (Z0 : rep (40 + Z.of_nat 0) (a_ofZ f64_arith 0) 0) by (apply (rep_weaken 0); [lia|]; apply rep_ofZ; lia).
    assert (E0 : Rabs (0 - 0) <= 301 / 100 * INR 0 * u * 0) by (rewrite Rminus_0_r, Rabs_R0; lra).
    destruct (horner_div_ieee fy X Y ltac:(lra) HX lanczos_num_coeffs (a_ofZ f64_arith 0) 0 0 0 ltac:(lra) RX CN ltac:(lia) Z0 E0 ltac:(lra) ltac:(right; intros E; rewrite E in LN; discriminate)) as (n & RN & EN & LB).
    assert (ZZ : rep (40 + Z.of_nat 0) (a_add f64_arith (a_div f64_arith (a_ofZ f64_arith 0) fy) (litp f64_lit (0, 0)%Z)) 0).
    { assert (Z1 : rep 0 (a_ofZ f64_arith 0) 0) by (apply rep_ofZ; lia). assert (D0 : 0 / X = 0) by (unfold Rdiv; ring).
      pose proof (rep_div _ _ _ _ _ _ Z1 RX ltac:(lra) ltac:(rewrite D0, Rabs_R0; apply bpow_ge_0) ltac:(lia)) as RD. rewrite D0, rn_0 in RD.
      pose proof (rep_add _ _ _ _ _ _ RD lit0 ltac:(lia)) as RA. rewrite Rplus_0_r, rn_0 in RA. revert RA. apply rep_weaken. lia. }
    destruct (horner_div_ieee fy X Y ltac:(lra) HX den_tail _ 0 0 0 ltac:(lra) RX CD ltac:(lia) ZZ E0 ltac:(lra) ltac:(right; intros E; rewrite E in LD; discriminate)) as (d & RD & ED & LBD).
    pose proof (hdiv_poly Y ltac:(lra) lanczos_num_coeffs 0) as HN. pose proof (hdiv_poly Y ltac:(lra) den_tail 0) as HD. fold (nE Y) in HN.
    assert (DE : Y * polyL Y den_tail = dD Y) by (rewrite <- den_val, den_cons; cbn [polyL]; unfold litv; cbn [fst snd]; ring).
    rewrite DE in HD. rewrite LN in *. rewrite LD in *. set (N' := hdiv Y 0 lanczos_num_coeffs) in *. set (D' := hdiv Y 0 den_tail) in *.
    assert (Q : nE Y / dD Y = N' / D').
    { assert (Y12 : 0 < Y ^ 12) by (apply pow_lt; lra). assert (NN : nE Y = N' * Y ^ 12). { apply (Rmult_eq_reg_l Y); [|lra]. change (Y ^ 13) with (Y * Y ^ 12) in HN. lra. }
      assert (DD : dD Y = D' * Y ^ 12) by lra. rewrite NN, DD. field. split; lra. }
    rewrite Q. unfold horner_div. rewrite den_cons. cbn [map fold_left].
    replace (INR (0 + 12)) with 12 in ED by (rewrite INR_IZR_INZ; reflexivity). replace (INR (0 + 13)) with 13 in EN by (rewrite INR_IZR_INZ; reflexivity).
    apply (ratio_ieee _ _ n d).
    + revert RN. apply rep_weaken. lia.
    + revert RD. apply rep_weaken. lia.
    + exact LB.
    + apply Rle_trans with (pow2 (-20)); [apply bpow_le; lia|exact LBD].
    + eapply Rle_trans; [exact EN|]. apply Rmult_le_compat_r; lra.
    + eapply Rle_trans; [exact ED|]. apply Rmult_le_compat_r; lra.
Qed.

(** ** Lanczos' formula *)
Lemma ul_pow : bpow radix2 (-52) = 2 * u. Proof. rewrite <- u_pow. exact (pow2_double (-53)). Qed.
Lemma uu_le : 0 <= u * u <= / 10 ^ 15 * u. Proof. pose proof u_le. split; [apply Rmult_le_pos; lra|apply Rmult_le_compat_r; lra]. Qed.
Lemma u_bound a : 0 <= a -> 0 <= u * a <= / 10 ^ 15 * a. Proof. intros H. pose proof u_le. split; [apply Rmult_le_pos; lra|apply Rmult_le_compat_r; lra]. Qed.
Lemma log_ieee L f r V e k : good_log L -> rep k f r -> 0 < V -> 0 <= e <= 1 / 10 ^ 6 -> Rabs (r - V) <= e * V -> Rabs (ln V) <= 1000 ->
  exists l, rep 10 (L f) l /\ Rabs (l - ln V) <= 1003 / 1000 * e + 2 * u * Rabs (ln V).
Proof.
  intros GL (F & E & _) HV He HR HL. destruct (lnrel r V e HV ltac:(cbn [pow] in He; lra) HR) as [RP LR]. subst r. destruct (GL f F RP) as [FL EL]. rewrite ul_pow in EL.
  pose proof u_le as UU. set (a := ln (B2R f)) in *. set (b := ln V) in *. clearbody a b.
  assert (AB : Rabs a <= Rabs b + 1002 / 1000 * e) by (replace a with ((a - b) + b) by ring; eapply Rle_trans; [apply Rabs_triang|]; lra).
  assert (UA : 2 * u * Rabs a <= 2 * u * (Rabs b + 1002 / 1000 * e)) by (apply Rmult_le_compat_l; lra).
  pose proof (u_bound e ltac:(lra)) as UE. pose proof (u_bound (Rabs b) (Rabs_pos b)) as UB.
  assert (G : Rabs (B2R (L f) - b) <= 1003 / 1000 * e + 2 * u * Rabs b).
  { replace (B2R (L f) - b) with ((B2R (L f) - a) + (a - b)) by ring. eapply Rle_trans; [apply Rabs_triang|]. cbn [pow] in *. lra. }
  exists (B2R (L f)). split; [|exact G]. apply rep_intro; [exact FL|]. replace (B2R (L f)) with ((B2R (L f) - b) + b) by ring. eapply Rle_trans; [apply Rabs_triang|].
  change (pow2 10) with 1024. cbn [pow] in *. lra.
Qed.
Lemma ln_pow2 k : (0 <= k)%Z -> ln (pow2 k) <= IZR k.
Proof.
  intros H. rewrite <- (exp_ln (pow2 k)) at 1 by apply bpow_gt_0. rewrite bpow_exp. rewrite !ln_exp.
  assert (ln (IZR radix2) <= 1). { change (IZR radix2) with 2. pose proof (ln_le_m1 2 ltac:(lra)). lra. }
  replace (IZR k) with (IZR k * 1) at 2 by ring. apply Rmult_le_compat_l; [apply (IZR_le 0); exact H|exact H0].
Qed.
Lemma ln_rng V k : (0 <= k)%Z -> pow2 (- k) <= V <= pow2 k -> Rabs (ln V) <= IZR k.
Proof.
  intros K [A B]. assert (P : 0 < pow2 (- k)) by apply bpow_gt_0. pose proof (ln_pow2 k K) as LP. apply Rabs_le. split.
  - apply Rle_trans with (ln (pow2 (- k))); [|apply ln_mono; lra]. rewrite bpow_opp, ln_Rinv by apply bpow_gt_0. lra.
  - eapply Rle_trans; [|exact LP]. apply ln_mono; lra.
Qed.
Lemma gl_rep : rep 3 (lanczos_g f64_lit) gl.
Proof.
  assert (V : IZR 6024680040776729583740234375 * powerRZ 10 (-27) = gl). { pose proof g_val as G. unfold lanczos_g, elit in G. injection G as G. exact G. }
  assert (FG : rn gl = gl). { apply rn_id, (multiple_format (-27)); [lia| |].
    - exists 808618867%Z. rewrite gl_val. change (pow2 (-27)) with (/ 134217728). lra.
    - rewrite gl_val, Rabs_pos_eq by lra. change (pow2 (-27 + 53)) with 67108864. lra. }
  unfold lanczos_g. pose proof (lit_rep 6024680040776729583740234375 (-27) 3 ltac:(lia)) as R. rewrite V, FG in R. apply R. rewrite gl_val, Rabs_pos_eq by lra. change (pow2 3) with 8. lra.
Qed.
Lemma half_rep : rep 0 (f64_lit 5 (-1)) (1 / 2).
Proof.
  assert (V : IZR 5 * powerRZ 10 (-1) = 1 / 2) by (change (-1)%Z with (- Z.of_nat 1)%Z; rewrite p10; cbn [pow]; field).
  pose proof (lit_rep 5 (-1) 0 ltac:(lia)) as R. rewrite V in R. replace (rn (1 / 2)) with (1 / 2) in R.
  - apply R. rewrite Rabs_pos_eq by lra. change (pow2 0) with 1. lra.
  - symmetry. apply rn_id, (multiple_format (-1)); [lia|exists 1%Z; change (pow2 (-1)) with (/ 2); lra|rewrite Rabs_pos_eq by lra; apply Rle_trans with (pow2 0); [change (pow2 0) with 1; lra|apply bpow_le; lia]].
Qed.
Lemma ln_al_ge Y : 0 <= Y -> 1 <= ln (al Y).
Proof.
  intros H. rewrite <- (ln_exp 1) at 1. apply ln_mono; [apply exp_pos|]. pose proof exp_le_3. unfold al. rewrite gl_val. lra.
Qed.
Section Main.
  Variables (L : f64 -> f64) (fy : f64) (Y : R).
  Hypothesis GL : good_log L.
  Hypothesis FY : is_finite fy = true.
  Hypothesis HY : pow2 (-53) <= Y <= pow2 980 + 1.
  Hypothesis HX : Rabs (B2R fy - Y) <= 1001 / 1000 * u * Y.
  Let X := B2R fy.
  Let K := Y + 1 / 2.
  Let B := ln (al Y) - 1.
  Let Lg := ln (nE Y / dD Y).
  Lemma Ypos : 0 < Y. Proof. assert (0 < pow2 (-53)) by apply bpow_gt_0. lra. Qed.
  Lemma RXX : rep 981 fy X.
  Proof.
    apply rep_intro; [exact FY|]. pose proof (u_bound Y ltac:(left; apply Ypos)) as UY. pose proof Ypos. assert (A := HX). apply Rabs_le_inv in A. fold X in A.
    assert (pow2 981 = 2 * pow2 980) by exact (pow2_double 980). assert (16 <= pow2 980) by (change 16 with (pow2 4); apply bpow_le; lia).
    change (B2R fy) with X. apply Rabs_le. cbn [pow] in *. lra.
  Qed.
  Lemma z_ieee : exists z, rep 983 (a_sub f64_arith (a_add f64_arith fy (lanczos_g f64_lit)) (f64_lit 5 (-1))) z /\ Rabs (z - al Y) <= 34 / 10 * u * al Y.
  Proof.
    pose proof Ypos as YP. pose proof u_le as UU. pose proof (u_bound Y ltac:(lra)) as UY. pose proof uu_le as U2. pose proof (eta_le 1 ltac:(change 1 with (pow2 0); apply bpow_le; lia)) as ET.
    pose proof (rep_add _ _ _ _ _ _ RXX gl_rep ltac:(lia)) as R1. pose proof (rep_sub _ _ _ _ _ _ R1 half_rep ltac:(lia)) as R2.
    pose proof (rerr (X + gl)) as E1. set (t := rn (X + gl)) in *. pose proof (rerr (t - 1 / 2)) as E2. set (z := rn (t - 1 / 2)) in *.
    exists z. split; [exact R2|]. unfold al in *. rewrite gl_val in *. assert (A := HX). fold X in A. apply Rabs_le_inv in A.
    pose proof (u_bound (u * Y) ltac:(lra)) as UUY.
    rewrite (Rabs_pos_eq (X + _)) in E1 by (cbn [pow] in *; lra). apply Rabs_le_inv in E1.
    assert (UX : u * X <= u * (Y + 1001 / 1000 * u * Y)) by (apply Rmult_le_compat_l; lra).
    assert (T : 5 <= t <= Y * (1 + 1 / 10 ^ 10) + 7) by (cbn [pow] in *; lra).
    rewrite (Rabs_pos_eq (t - _)) in E2 by lra. apply Rabs_le_inv in E2.
    assert (UT : u * t <= u * (Y * (1 + 1 / 10 ^ 10) + 7)) by (apply Rmult_le_compat_l; lra). apply Rabs_le. cbn [pow] in *. lra.
  Qed.
  Lemma lgamma_main_ieee : is_finite (lgamma_main f64_arith f64_lit L fy) = true /\
    Rabs (B2R (lgamma_main f64_arith f64_lit L fy) - lnE Y) <= (105 + 41 / 10 * Rabs (lnE Y) + 91 / 10 * (K * ln (al Y))) * u.
  Proof.
    pose proof Ypos as YP. pose proof u_le as UU. pose proof uu_le as U2. pose proof (eta_le 1 ltac:(change 1 with (pow2 0); apply bpow_le; lia)) as ET. rewrite Rmult_1_r in ET.
    pose proof (u_bound Y ltac:(lra)) as UY.
    destruct (lanczos_ieee fy Y FY ltac:(lra) HX) as (s & RS & ES & SB).
    destruct (log_ieee L _ s (nE Y / dD Y) (80 * u) 200 GL RS) as (ls & RL & EL).
    { assert (0 < pow2 (-140)) by apply bpow_gt_0. lra. } { cbn [pow] in *. lra. } { exact ES. }
    { assert (pow2 (- (200)) <= pow2 (-140)) by (apply bpow_le; lia). pose proof (ln_rng (nE Y / dD Y) 200 ltac:(lia) ltac:(lra)). lra. }
    fold Lg in EL.
    assert (LB : Rabs Lg <= 200). { assert (pow2 (- (200)) <= pow2 (-140)) by (apply bpow_le; lia). apply (ln_rng (nE Y / dD Y) 200); [lia|lra]. }
    pose proof (u_bound (Rabs Lg) (Rabs_pos _)) as UL.
    pose proof (rep_sub _ _ _ _ _ _ RL gl_rep ltac:(lia)) as R1. cbn [Z.max Z.add Z.compare] in R1. pose proof (rerr (ls - gl)) as E1. set (r1 := rn (ls - gl)) in *.
    assert (G1 : Rabs (r1 - (Lg - gl)) <= 866 / 10 * u + 3001 / 1000 * (u * Rabs Lg)).
    { assert (B1 : Rabs (ls - gl) <= Rabs Lg + (1003 / 1000 * (80 * u) + 2 * u * Rabs Lg) + gl).
      { replace (ls - gl) with ((ls - Lg) + (Lg + - gl)) by ring. eapply Rle_trans; [apply Rabs_triang|]. pose proof (Rabs_triang Lg (- gl)) as T. rewrite Rabs_Ropp, (Rabs_pos_eq gl) in T by (rewrite gl_val; lra). lra. }
      assert (B2 : u * Rabs (ls - gl) <= u * (Rabs Lg + (1003 / 1000 * (80 * u) + 2 * u * Rabs Lg) + gl)) by (apply Rmult_le_compat_l; lra).
      pose proof (u_bound (u * Rabs Lg) ltac:(lra)) as UUL. replace (r1 - (Lg - gl)) with ((r1 - (ls - gl)) + (ls - Lg)) by ring. eapply Rle_trans; [apply Rabs_triang|]. rewrite gl_val in *. cbn [pow] in *. lra. }
    (* log(y + g - 1/2) - 1 *)
    destruct z_ieee as (z & RZ & EZ). pose proof (ln_al_ge Y ltac:(lra)) as A1. assert (AP : 0 < al Y) by (apply al_pos; lra).
    assert (A2 : Rabs (ln (al Y)) <= 982). { apply ln_rng; [lia|]. change (- (982))%Z with (-982)%Z. assert (pow2 982 = 2 * pow2 981) by exact (pow2_double 981). assert (pow2 981 = 2 * pow2 980) by exact (pow2_double 980). assert (16 <= pow2 980) by (change 16 with (pow2 4); apply bpow_le; lia).
      assert (pow2 (-982) <= 1) by (change 1 with (pow2 0); apply bpow_le; lia). unfold al in *. rewrite gl_val in *. lra. }
    destruct (log_ieee L _ z (al Y) (34 / 10 * u) 983 GL RZ AP ltac:(cbn [pow] in *; lra) EZ ltac:(lra)) as (a & RA & EA).
    rewrite (Rabs_pos_eq (ln (al Y))) in EA, A2 by lra. assert (AB : ln (al Y) = B + 1) by (unfold B; ring). rewrite AB in *. assert (B0 : 0 <= B <= 982) by lra. clear A1 A2.
    pose proof (u_bound B ltac:(lra)) as UB. pose proof (u_bound (u * B) ltac:(lra)) as UUB.
    pose proof (rep_sub _ _ _ _ _ _ RA (rep_ofZ 1 0 ltac:(lia) ltac:(lia)) ltac:(lia)) as RB. cbn [Z.max Z.add Z.compare] in RB. pose proof (rerr (a - 1)) as EB. set (b := rn (a - 1)) in *.
    assert (GB : Rabs (b - B) <= 55 / 10 * u + 3001 / 1000 * (u * B)).
    { assert (Q1 : Rabs (a - 1) <= B + (1003 / 1000 * (34 / 10 * u) + 2 * u * (B + 1))). { replace (a - 1) with ((a - (B + 1)) + B) by ring. eapply Rle_trans; [apply Rabs_triang|]. rewrite (Rabs_pos_eq B) by lra. lra. }
      assert (Q2 : u * Rabs (a - 1) <= u * (B + (1003 / 1000 * (34 / 10 * u) + 2 * u * (B + 1)))) by (apply Rmult_le_compat_l; lra).
      replace (b - B) with ((b - (a - 1)) + (a - (B + 1))) by ring. eapply Rle_trans; [apply Rabs_triang|]. cbn [pow] in *. lra. }
    (* y - 1/2 *)
    pose proof (rep_sub _ _ _ _ _ _ RXX half_rep ltac:(lia)) as RH. cbn [Z.max Z.add Z.compare] in RH. pose proof (rerr (X - 1 / 2)) as EH. set (h := rn (X - 1 / 2)) in *.
    assert (KH : Rabs (Y - 1 / 2) <= K) by (unfold K; apply Rabs_le; lra). assert (KP : 1 / 2 <= K) by (unfold K; lra). pose proof (u_bound K ltac:(lra)) as UK. pose proof (u_bound (u * K) ltac:(lra)) as UUK.
    assert (YK : Y <= K) by (unfold K; lra). assert (UYK : u * Y <= u * K) by (apply Rmult_le_compat_l; lra). set (H := Y - 1 / 2) in *.
    assert (GH : Rabs (h - H) <= 2004 / 1000 * (u * K)).
    { assert (X1 : Rabs (X - 1 / 2 - H) <= 1001 / 1000 * (u * K)) by (replace (X - 1 / 2 - H) with (X - Y) by (unfold H; ring); fold X in HX; lra).
      assert (Q1 : Rabs (X - 1 / 2) <= K + 1001 / 1000 * (u * K)). { replace (X - 1 / 2) with ((X - 1 / 2 - H) + H) by ring. eapply Rle_trans; [apply Rabs_triang|]. lra. }
      assert (Q2 : u * Rabs (X - 1 / 2) <= u * (K + 1001 / 1000 * (u * K))) by (apply Rmult_le_compat_l; lra).
      assert (ETK : eta <= u / 10 ^ 6 * (2 * K)) by (apply Rle_trans with (u / 10 ^ 6 * 1); [lra|apply Rmult_le_compat_l; [cbn [pow]; lra|lra]]).
      replace (h - H) with ((h - (X - 1 / 2)) + (X - 1 / 2 - H)) by ring. eapply Rle_trans; [apply Rabs_triang|]. cbn [pow] in *. lra. }
    (* the product *)
    pose proof (rep_mul _ _ _ _ _ _ RH RB ltac:(lia)) as RP. cbn [Z.add] in RP. pose proof (rerr (h * b)) as EP. set (p := rn (h * b)) in *.
    assert (KB : 0 <= K * B) by (apply Rmult_le_pos; lra). pose proof (u_bound (K * B) KB) as UKB. pose proof (u_bound (u * (K * B)) ltac:(lra)) as UUKB. pose proof (u_bound (u * (u * K)) ltac:(lra)) as UUUK. pose proof (u_bound (u * (u * (K * B))) ltac:(lra)) as UUUKB.
    assert (GP0 : Rabs (h * b - H * B) <= 551 / 100 * (u * K) + 502 / 100 * (u * (K * B))).
    { assert (Q1 : Rabs (h - H) * Rabs b <= 2004 / 1000 * (u * K) * (B + (55 / 10 * u + 3001 / 1000 * (u * B)))).
      { apply Rmult_le_compat; try apply Rabs_pos; [exact GH|]. replace b with ((b - B) + B) by ring. eapply Rle_trans; [apply Rabs_triang|]. rewrite (Rabs_pos_eq B) by lra. lra. }
      assert (Q2 : Rabs H * Rabs (b - B) <= K * (55 / 10 * u + 3001 / 1000 * (u * B))) by (apply Rmult_le_compat; try apply Rabs_pos; lra).
      replace (h * b - H * B) with ((h - H) * b + H * (b - B)) by ring. eapply Rle_trans; [apply Rabs_triang|]. rewrite !Rabs_mult. cbn [pow] in *. lra. }
    assert (HB : Rabs (H * B) <= K * B) by (rewrite Rabs_mult, (Rabs_pos_eq B) by lra; apply Rmult_le_compat_r; lra).
    assert (GP : Rabs (p - H * B) <= u / 10 ^ 5 + 552 / 100 * (u * K) + 603 / 100 * (u * (K * B))).
    { assert (Q1 : Rabs (h * b) <= K * B + (551 / 100 * (u * K) + 502 / 100 * (u * (K * B)))). { replace (h * b) with ((h * b - H * B) + H * B) by ring. eapply Rle_trans; [apply Rabs_triang|]. lra. }
      assert (Q2 : u * Rabs (h * b) <= u * (K * B + (551 / 100 * (u * K) + 502 / 100 * (u * (K * B))))) by (apply Rmult_le_compat_l; lra).
      replace (p - H * B) with ((p - h * b) + (h * b - H * B)) by ring. eapply Rle_trans; [apply Rabs_triang|]. cbn [pow] in *. lra. }
    (* the sum *)
    assert (RF : rep 994 (lgamma_main f64_arith f64_lit L fy) (rn (r1 + p))) by exact (rep_add _ _ _ _ _ _ R1 RP ltac:(lia)). clear R1 RP. destruct RF as (FF & EF & _). split; [exact FF|]. rewrite EF. clear EF FF.
    assert (LE : lnE Y = (Lg - gl) + H * B) by reflexivity. pose proof (rerr (r1 + p)) as EF. set (v := lnE Y) in *. 
    assert (LGB : Rabs Lg <= Rabs v + gl + K * B). { replace Lg with (v + (gl + - (H * B))) by (rewrite LE; ring). eapply Rle_trans; [apply Rabs_triang|]. pose proof (Rabs_triang gl (- (H * B))) as T. rewrite Rabs_Ropp, (Rabs_pos_eq gl) in T by (rewrite gl_val; lra). lra. }
    pose proof (u_bound (Rabs v) (Rabs_pos v)) as UV. assert (ULB : u * Rabs Lg <= u * (Rabs v + gl + K * B)) by (apply Rmult_le_compat_l; lra). rewrite gl_val in ULB, LGB.
    assert (GS : Rabs (r1 + p - v) <= 1047 / 10 * u + 3001 / 1000 * (u * Rabs v) + 552 / 100 * (u * K) + 904 / 100 * (u * (K * B))).
    { replace (r1 + p - v) with ((r1 - (Lg - gl)) + (p - H * B)) by (rewrite LE; ring). eapply Rle_trans; [apply Rabs_triang|]. cbn [pow] in *. lra. }
    clearbody v b h p r1. pose proof (u_bound (u * Rabs v) ltac:(lra)) as UUV.
    assert (Q1 : Rabs (r1 + p) <= Rabs v + (1047 / 10 * u + 3001 / 1000 * (u * Rabs v) + 552 / 100 * (u * K) + 904 / 100 * (u * (K * B)))).
    { replace (r1 + p) with ((r1 + p - v) + v) by ring. eapply Rle_trans; [apply Rabs_triang|]. lra. }
    assert (Q2 : u * Rabs (r1 + p) <= u * (Rabs v + (1047 / 10 * u + 3001 / 1000 * (u * Rabs v) + 552 / 100 * (u * K) + 904 / 100 * (u * (K * B))))) by (apply Rmult_le_compat_l; lra).
    replace (rn (r1 + p) - v) with ((rn (r1 + p) - (r1 + p)) + (r1 + p - v)) by ring. eapply Rle_trans; [apply Rabs_triang|].
    clearbody K B. clear - Q2 EF GS ET UU U2 UV UK UKB UUV UUK UUKB KP KB. cbn [pow] in *. lra.
  Qed.
End Main.

(** ** the rational approximation on (-1/4, 9/10) *)
Lemma Q2R_abs q : Q2R (Qabs q) = Rabs (Q2R q).
Proof. destruct q as [n d]. unfold Q2R, Qabs. cbn [Qnum Qden]. rewrite Rabs_mult, <- abs_IZR. f_equal. symmetry. apply Rabs_pos_eq. left. apply Rinv_0_lt_compat. now apply IZR_lt. Qed.
Definition tinyq : Q := Qmake 1 (10 ^ 12).
(** rounded up to nine digits *)
Definition upq (q : Q) : Q := Qmake (Qnum q * 10 ^ 9 / Z.pos (Qden q) + 1) (10 ^ 9).
Lemma upq_le q : Q2R q <= Q2R (upq q).
Proof.
  apply Qle_Rle. unfold Qle, upq. cbn [Qnum Qden]. change (Z.pos (10 ^ 9)) with (10 ^ 9)%Z. set (a := (Qnum q * 10 ^ 9)%Z). set (d := Z.pos (Qden q)). assert (D : (0 < d)%Z) by reflexivity. clearbody a d.
  pose proof (Z.div_mod a d ltac:(lia)). pose proof (Z.mod_pos_bound a d D). nia.
Qed.
Fixpoint hBE (m : Q) (l : list (Z * Z)) : Q * Q :=
  match l with
  | [] => (Qmake 0 1, Qmake 0 1)
  | p :: l' => let '(b, e) := hBE m l' in let c := Qabs (litq p) in
      (upq (b * m + c), upq ((e * m + 2 * (b * m) + 2 * c) * (1 + tinyq) + tinyq))%Q
  end.
Definition coef_ok2 (p : Z * Z) : bool := (snd p <=? 0)%Z && Qle_bool (Qabs (litq p)) (Qmake (2 ^ 40) 1).
Lemma tinyq_val : Q2R tinyq = / 10 ^ 12. Proof. unfold Q2R, tinyq. cbn [Qnum Qden]. replace (IZR (Z.pos (10 ^ 12))) with (10 ^ 12) by (rewrite pow_IZR; reflexivity). lra. Qed.
Lemma horner_abs_ieee fx x m l : rep 0 fx x -> Rabs x <= Q2R m -> forallb coef_ok2 l = true -> (length l <= 200)%nat ->
  exists v, rep (40 + Z.of_nat (length l)) (horner_mul f64_arith fx (map (litp f64_lit) l)) v /\ Rabs (v - polyL x l) <= Q2R (snd (hBE m l)) * u /\ Rabs (polyL x l) <= Q2R (fst (hBE m l)) /\
    0 <= Q2R (snd (hBE m l)) /\ 0 <= Q2R (fst (hBE m l)).
Proof.
  intros RX HM. induction l as [|p l IH]; intros H LN.
  - exists 0. cbn [map polyL length hBE fst snd]. assert (Z0 : Q2R (0 # 1) = 0) by (unfold Q2R; cbn; ring). rewrite Rminus_0_r, Rabs_R0, Z0.
    split; [apply (rep_weaken 0); [lia|]; apply (rep_ofZ 0); lia|]. lra.
  - cbn [forallb] in H. apply andb_prop in H. destruct H as [H1 H2]. cbn [length] in LN. destruct (IH H2 ltac:(lia)) as (v & RV & EV & BV & E0 & B0). clear IH.
    unfold coef_ok2 in H1. apply andb_prop in H1. destruct H1 as [H1 H3]. apply Z.leb_le in H1. apply Qle_bool_iff in H3. apply Qle_Rle in H3. rewrite Q2R_abs, litq_val in H3 by exact H1.
    cbn [map hBE]. destruct (hBE m l) as [qb qe]. cbn [fst snd] in *. rewrite horner_mul_cons. cbn [polyL length].
    set (E2 := upq _). set (B2 := upq _). assert (UB2 := upq_le _ : _ <= Q2R B2). assert (UE2 := upq_le _ : _ <= Q2R E2). clearbody B2 E2.
    repeat (rewrite Q2R_plus in UB2 || rewrite Q2R_mult in UB2). repeat (rewrite Q2R_plus in UE2 || rewrite Q2R_mult in UE2). rewrite Q2R_abs, litq_val in UB2, UE2 by exact H1. rewrite tinyq_val in UE2.
    replace (Q2R 2) with 2 in UE2 by (unfold Q2R; cbn; field). replace (Q2R 1) with 1 in UE2 by (unfold Q2R; cbn; field).
    set (c := litv p) in *. set (B := Q2R qb) in *. set (E := Q2R qe) in *. set (M := Q2R m) in *. set (P := polyL x l) in *. clearbody B E M P.
    assert (C40 : Rabs c <= pow2 40) by (eapply Rle_trans; [exact H3|]; unfold Q2R; cbn [Qnum Qden]; change (pow2 40) with (IZR (2 ^ 40)); rewrite Rinv_1; lra).
    assert (RC : rep 40 (litp f64_lit p) (rn c)) by (apply (lit_rep (fst p) (snd p)); [lia|exact C40]).
    pose proof (rep_mul _ _ _ _ _ _ RV RX ltac:(lia)) as RM. pose proof (rep_add _ _ _ _ _ _ RM RC ltac:(lia)) as RA.
    exists (rn (rn (v * x) + rn c)). split; [revert RA; apply rep_weaken; lia|].
    pose proof u_le as UU. pose proof (Rabs_pos x) as X0. pose proof (Rabs_pos c) as C0. assert (M0 : 0 <= M) by lra.
    assert (BM : 0 <= B * M) by (apply Rmult_le_pos; lra). assert (EM : 0 <= E * M) by (apply Rmult_le_pos; lra).
    assert (PX : Rabs (x * P) <= B * M) by (rewrite Rabs_mult, Rmult_comm; apply Rmult_le_compat; try apply Rabs_pos; lra).
    assert (I12 : 0 < / 10 ^ 12) by (apply Rinv_0_lt_compat, pow_lt; lra).
    split; [|split; [|split]].
    + apply Rle_trans with (((E * M + 2 * (B * M) + 2 * Rabs c) * (1 + / 10 ^ 12) + / 10 ^ 12) * u); [|apply Rmult_le_compat_r; [lra|exact UE2]].
      pose proof (rerr (v * x)) as R1. pose proof (rerr c) as R2. pose proof (rerr (rn (v * x) + rn c)) as R3. pose proof eta_small as ET.
      assert (D1 : Rabs (v * x - x * P) <= u * (E * M)). { replace (v * x - x * P) with ((v - P) * x) by ring. rewrite Rabs_mult. apply Rle_trans with (E * u * M); [apply Rmult_le_compat; try apply Rabs_pos; lra|lra]. }
      pose proof (u_bound (E * M) EM) as UE. pose proof (u_bound (B * M) BM) as UB. pose proof (u_bound (Rabs c) C0) as UC. pose proof (u_bound (u * (E * M)) ltac:(lra)) as UUE. pose proof (u_bound (u * (B * M)) ltac:(lra)) as UUB. pose proof (u_bound (u * Rabs c) ltac:(lra)) as UUC.
      assert (D2 : Rabs (v * x) <= B * M + u * (E * M)) by (replace (v * x) with ((v * x - x * P) + x * P) by ring; eapply Rle_trans; [apply Rabs_triang|]; lra).
      assert (D3 : u * Rabs (v * x) <= u * (B * M + u * (E * M))) by (apply Rmult_le_compat_l; lra).
      assert (ETU : eta <= u / 10 ^ 15) by (destruct ET as [_ ET]; unfold u; cbn [pow] in *; lra).
      set (s := rn (v * x) + rn c) in *. assert (D4 : Rabs (s - (c + x * P)) <= u * (E * M) + u * (B * M + u * (E * M)) + u * Rabs c + 2 * eta).
      { unfold s. replace (rn (v * x) + rn c - (c + x * P)) with ((rn (v * x) - v * x) + ((v * x - x * P) + (rn c - c))) by ring. eapply Rle_trans; [apply Rabs_triang|]. pose proof (Rabs_triang (v * x - x * P) (rn c - c)). lra. }
      assert (D5 : Rabs s <= B * M + Rabs c + (u * (E * M) + u * (B * M + u * (E * M)) + u * Rabs c + 2 * eta)).
      { replace s with ((s - (c + x * P)) + (c + x * P)) by ring. eapply Rle_trans; [apply Rabs_triang|]. pose proof (Rabs_triang c (x * P)). lra. }
      assert (D6 : u * Rabs s <= u * (B * M + Rabs c + (u * (E * M) + u * (B * M + u * (E * M)) + u * Rabs c + 2 * eta))) by (apply Rmult_le_compat_l; lra).
      pose proof (u_bound eta ltac:(lra)) as UET.
      replace (rn s - (c + x * P)) with ((rn s - s) + (s - (c + x * P))) by ring. eapply Rle_trans; [apply Rabs_triang|].
      clear - R3 D4 D6 UE UB UC UUE UUB UUC ETU UET UU C0 BM EM. pose proof uu_le. set (ue := u * (E * M)) in *. set (ub := u * (B * M)) in *. set (uc := u * Rabs c) in *. 
      replace (((E * M + 2 * (B * M) + 2 * Rabs c) * (1 + / 10 ^ 12) + / 10 ^ 12) * u) with ((ue + 2 * ub + 2 * uc) * (1 + / 10 ^ 12) + / 10 ^ 12 * u) by (unfold ue, ub, uc; ring).
      replace (u * (B * M + Rabs c + (ue + u * (B * M + ue) + uc + 2 * eta))) with (ub + uc + (u * ue + u * (ub + u * ue) + u * uc + 2 * (u * eta))) in D6 by (unfold ub, uc, ue; ring).
      replace (u * (B * M + ue)) with (ub + u * ue) in D4 by (unfold ub; ring).
      assert (UUUE : u * (u * ue) <= / 10 ^ 15 * (u * ue)) by (apply u_bound; lra). assert (UUUB : u * ub + u * (u * ue) = u * (ub + u * ue)) by ring.
      cbn [pow] in *. lra.
    + eapply Rle_trans; [apply Rabs_triang|]. lra.
    + eapply Rle_trans; [|exact UE2]. apply Rplus_le_le_0_compat; [apply Rmult_le_pos; lra|lra].
    + lra.
Qed.
Lemma quot_ieee x T Q ph qh a k EQ q : / 5 <= q -> q <= Q -> 0 <= a -> 0 <= k <= 1 -> 0 <= EQ -> EQ * u <= q / 10 ^ 6 -> Rabs T <= k * Q -> Rabs x <= 1 -> a * u <= / 10 ^ 6 ->
  Rabs (ph - x * T) <= a * (1 + / 10 ^ 6) * u * Rabs x + eta -> Rabs (qh - Q) <= EQ * u ->
  0 < qh /\ Rabs (ph / qh) <= 2 /\ Rabs (rn (ph / qh) - x * T / Q) <= (a / q + k * (EQ / q + 1)) * (1003 / 1000) * u * Rabs x + 10 * eta.
Proof.
  intros Hq HQ Ha Hk HE HEu HT Hx Hau HP HQH. pose proof u_le as UU. pose proof eta_small as ET. pose proof (Rabs_pos x) as X0.
  set (e := EQ * u / q). assert (e0 : 0 <= e <= 1 / 10 ^ 6).
  { unfold e. split; [apply Rmult_le_pos; [apply Rmult_le_pos; lra|left; apply Rinv_0_lt_compat; lra]|]. apply (Rmult_le_reg_r q); [lra|]. unfold Rdiv. rewrite !Rmult_assoc, Rinv_l by lra. cbn [pow] in *. lra. }
  assert (EQ' : Rabs (qh - Q) <= e * Q). { eapply Rle_trans; [exact HQH|]. replace (EQ * u) with (e * q) by (unfold e; field; lra). apply Rmult_le_compat_l; lra. }
  destruct (relinv qh Q e ltac:(lra) ltac:(cbn [pow] in e0; lra) EQ') as [QP EI]. split; [exact QP|].
  assert (IQ : 0 < 1 / Q <= 1 / q) by (unfold Rdiv; rewrite !Rmult_1_l; split; [apply Rinv_0_lt_compat; lra|apply Rinv_le_contravar; lra]).
  assert (Iq : 1 / q <= 5) by (unfold Rdiv; rewrite Rmult_1_l; replace 5 with (/ / 5) by lra; apply Rinv_le_contravar; lra).
  assert (IH : 0 <= 1 / qh <= 1001 / 1000 * (1 / q)).
  { split; [left; unfold Rdiv; rewrite Rmult_1_l; now apply Rinv_0_lt_compat|]. apply Rabs_le_inv in EI. assert (e * (1 / Q) <= 1 / 10 ^ 6 * (1 / Q)) by (apply Rmult_le_compat_r; lra). cbn [pow] in *. lra. }
  assert (XT : Rabs (x * T) * (1 / Q) <= k * Rabs x). { rewrite Rabs_mult. replace (k * Rabs x) with (Rabs x * (k * Q) * (1 / Q)) by (field; lra). apply Rmult_le_compat_r; [lra|]. apply Rmult_le_compat_l; lra. }
  set (w := x * T / Q) in *. assert (W : Rabs w <= k * Rabs x). { unfold w, Rdiv. rewrite Rabs_mult, (Rabs_pos_eq (/ Q)) by (left; apply Rinv_0_lt_compat; lra). unfold Rdiv in XT. rewrite Rmult_1_l in XT. exact XT. }
  set (d := a * u * Rabs x) in *. assert (D0 : 0 <= d) by (unfold d; repeat apply Rmult_le_pos; lra).
  assert (KX : 0 <= k * Rabs x) by (apply Rmult_le_pos; lra).
  assert (S1 : Rabs (ph / qh - w) <= (d * (1 + / 10 ^ 6) + eta) * (1001 / 1000 * (1 / q)) + 1002 / 1000 * e * (k * Rabs x)).
  { replace (ph / qh - w) with ((ph - x * T) * (1 / qh) + (x * T) * (1 / qh - 1 / Q)) by (unfold w; field; lra). eapply Rle_trans; [apply Rabs_triang|]. apply Rplus_le_compat.
    - rewrite Rabs_mult, (Rabs_pos_eq (1 / qh)) by lra. apply Rmult_le_compat; [apply Rabs_pos|lra| |lra]. unfold d. eapply Rle_trans; [exact HP|]. right. ring.
    - rewrite Rabs_mult. apply Rle_trans with (Rabs (x * T) * (1002 / 1000 * e * (1 / Q))); [apply Rmult_le_compat_l; [apply Rabs_pos|exact EI]|].
      replace (Rabs (x * T) * (1002 / 1000 * e * (1 / Q))) with (1002 / 1000 * e * (Rabs (x * T) * (1 / Q))) by ring. apply Rmult_le_compat_l; [lra|exact XT]. }
  assert (DQ : 0 <= d * (1 / q)) by (apply Rmult_le_pos; lra). assert (EK : 0 <= e * (k * Rabs x) <= 1 / 10 ^ 6 * (k * Rabs x)) by (split; [apply Rmult_le_pos; lra|apply Rmult_le_compat_r; lra]).
  assert (EQQ : 0 <= eta * (1 / q) <= eta * 5) by (split; [apply Rmult_le_pos; lra|apply Rmult_le_compat_l; lra]).
  assert (S2 : Rabs (ph / qh - w) <= 10011 / 10000 * (d * (1 / q)) + 1002 / 1000 * (e * (k * Rabs x)) + 51 / 10 * eta) by (cbn [pow] in *; lra).
  assert (S3 : Rabs (ph / qh) <= k * Rabs x + (10011 / 10000 * (d * (1 / q)) + 1002 / 1000 * (e * (k * Rabs x)) + 51 / 10 * eta)).
  { replace (ph / qh) with ((ph / qh - w) + w) by ring. eapply Rle_trans; [apply Rabs_triang|]. lra. }
  assert (KX1 : k * Rabs x <= 1) by (replace 1 with (1 * 1) by ring; apply Rmult_le_compat; lra).
  assert (D1 : d <= / 10 ^ 6) by (unfold d; replace (/ 10 ^ 6) with (/ 10 ^ 6 * 1) by ring; apply Rmult_le_compat; try lra; apply Rmult_le_pos; lra).
  assert (DQ1 : d * (1 / q) <= / 10 ^ 6 * 5) by (apply Rmult_le_compat; lra).
  assert (ET1 : eta <= / 10 ^ 15) by (destruct ET as [_ ET]; cbn [pow] in *; lra).
  split; [cbn [pow] in *; lra|].
  pose proof (rerr (ph / qh)) as R. assert (UR : u * Rabs (ph / qh) <= u * (k * Rabs x + (10011 / 10000 * (d * (1 / q)) + 1002 / 1000 * (e * (k * Rabs x)) + 51 / 10 * eta))) by (apply Rmult_le_compat_l; lra).
  replace (rn (ph / qh) - w) with ((rn (ph / qh) - ph / qh) + (ph / qh - w)) by ring. eapply Rle_trans; [apply Rabs_triang|].
  replace ((a / q + k * (EQ / q + 1)) * (1003 / 1000) * u * Rabs x + 10 * eta) with (1003 / 1000 * (d * (1 / q) + e * (k * Rabs x) + u * (k * Rabs x)) + 10 * eta) by (unfold d, e; field; lra).
  pose proof (u_bound (d * (1 / q)) DQ) as U1. pose proof (u_bound (e * (k * Rabs x)) ltac:(lra)) as U2. pose proof (u_bound eta ltac:(lra)) as U3. pose proof (u_bound (k * Rabs x) KX) as U4.
  set (A := d * (1 / q)) in *. set (B := e * (k * Rabs x)) in *. set (C := k * Rabs x) in *. clearbody A B C. cbn [pow] in *. lra.
Qed.
(** a piece [n/b, (n+m)/b] of the interval: |x| <= mq, Q >= ql/1000, |P/x| <= kap/1000 Q there, and the error is at most c units *)
Definition ptail : list (Z * Z) := tl loggamma1p_small_x_p_coeff.
Definition piece (b n m : Z) (mq : Q) (ql kap : Z) (c : Q) : bool :=
  let '(bt, et) := hBE mq ptail in let '(bq, eq) := hBE mq loggamma1p_small_x_q_coeff in
  let tz := tl pz in let q := Qmake ql 1000 in let k := Qmake kap 1000 in
  (0 <? b)%Z && (0 <? m)%Z && (200 <=? ql)%Z && (0 <=? kap)%Z && (kap <=? 1000)%Z &&
  nonneg_on b n m (qadd qz [(- ql * 10 ^ 19)%Z]) && nonneg_on b n m (qadd (qscal kap qz) (qscal 1000 tz)) && nonneg_on b n m (qadd (qscal kap qz) (qscal (-1000) tz)) &&
  Qle_bool eq 1000 && Qle_bool (et + bt) 1000 &&
  Qle_bool (((et + bt) / q + k * (eq / q + 1)) * Qmake 1003 1000) c.

Lemma ptail_ok : loggamma1p_small_x_p_coeff = (0, 0)%Z :: ptail /\ forallb coef_ok2 ptail = true /\ forallb coef_ok2 loggamma1p_small_x_q_coeff = true /\ (length ptail <= 200)%nat /\ (length loggamma1p_small_x_q_coeff <= 200)%nat.
Proof. split; [reflexivity|]. split; [vm_compute; reflexivity|]. split; [vm_compute; reflexivity|]. split; cbn; lia. Qed.
Lemma ptail_pev x : polyL x ptail = pev (tl pz) x / IZR (10 ^ 22).
Proof. rewrite (polyL_pev 22) by (lia || reflexivity). reflexivity. Qed.
Lemma qcoef_pev x : polyL x loggamma1p_small_x_q_coeff = pev qz x / IZR (10 ^ 22).
Proof. rewrite (polyL_pev 22) by (lia || reflexivity). reflexivity. Qed.
Lemma pz_pev x : pev pz x = x * pev (tl pz) x.
Proof. change pz with (0%Z :: tl pz). cbn [pev tl]. ring. Qed.
Local Opaque ptail loggamma1p_small_x_q_coeff loggamma1p_small_x_p_coeff pz qz.
Lemma piece_spec b n m mq ql kap c fx x : piece b n m mq ql kap c = true -> rep 0 fx x -> Rabs x <= Q2R mq -> IZR n / IZR b <= x <= (IZR n + IZR m) / IZR b ->
  is_finite (loggamma1p_small_x f64_arith f64_lit fx) = true /\
  Rabs (B2R (loggamma1p_small_x f64_arith f64_lit fx) - wq x) <= Q2R c * u * Rabs x + 10 * eta.
Proof.
  intros H RX HM HI. destruct ptail_ok as (EC & OKP & OKQ & LP & LQ).
  destruct (horner_abs_ieee fx x mq ptail RX HM OKP LP) as (t & RT & ET & BT & ET0 & BT0). destruct (horner_abs_ieee fx x mq _ RX HM OKQ LQ) as (qh & RQ & EQ & BQ & EQ0 & BQ0).
  unfold piece in H. destruct (hBE mq ptail) as [bt et]. destruct (hBE mq loggamma1p_small_x_q_coeff) as [bq eq]. cbn [fst snd] in *.
  repeat (apply andb_prop in H; let G := fresh "G" in destruct H as [H G]). apply Z.ltb_lt in H, G8. apply Z.leb_le in G7, G6, G5.
  apply (nonneg_on_spec b n m _ x) in G4, G3, G2; try assumption. rewrite pev_qadd in G4, G3, G2. rewrite !pev_qscal in G3, G2.
  apply Qle_bool_iff, Qle_Rle in G, G0, G1.
  assert (P22 : IZR (10 ^ 22) = 1000 * IZR (10 ^ 19)) by (rewrite <- mult_IZR; reflexivity). assert (P19 : 0 < IZR (10 ^ 19)) by (apply IZR_lt; reflexivity).
  assert (QV := qcoef_pev x). assert (TV := ptail_pev x). set (Q := polyL x loggamma1p_small_x_q_coeff) in *. set (T := polyL x ptail) in *.
  rewrite P22 in QV, TV. cbn [pev] in G4. rewrite mult_IZR, opp_IZR in G4. set (D := IZR (10 ^ 19)) in *. clearbody D.
  assert (QE : pev qz x = 1000 * D * Q) by (rewrite QV; field; lra). assert (TE : pev (tl pz) x = 1000 * D * T) by (rewrite TV; field; lra).
  assert (W : wq x = x * T / Q). { unfold wq. rewrite pz_pev, QE, TE. unfold Rdiv. destruct (Req_dec Q 0) as [Z|Z]; [rewrite Z; rewrite !Rmult_0_r, !Rinv_0; ring|field; lra]. }
  rewrite W. rewrite QE in G4, G3, G2. rewrite TE in G3, G2.
  apply IZR_le in G7, G6, G5. set (kl := IZR kap) in *. set (q := IZR ql / 1000).
  assert (Hq : q <= Q). { apply (Rmult_le_reg_r D); [exact P19|]. unfold q. lra. }
  assert (HT : Rabs T <= kl / 1000 * Q). { apply Rabs_le. split; apply (Rmult_le_reg_r D); try exact P19; lra. }
  rewrite Q2R_plus in G0. replace (Q2R 1000) with 1000 in G0, G1 by (unfold Q2R; cbn; field).
  assert (CV : ((Q2R et + Q2R bt) / q + kl / 1000 * (Q2R eq / q + 1)) * (1003 / 1000) <= Q2R c).
  { eapply Rle_trans; [|exact G]. right. assert (QQ : Q2R (ql # 1000) = q) by (unfold Q2R, q; cbn [Qnum Qden]; reflexivity).
    assert (NZ : ~ (ql # 1000 == 0)%Q) by (intros E; apply Qeq_eqR in E; rewrite QQ in E; unfold q in E; replace (Q2R 0) with 0 in E by (unfold Q2R; cbn; ring); lra).
    rewrite Q2R_mult, Q2R_plus, Q2R_mult, Q2R_plus, !Q2R_div, Q2R_plus, QQ by exact NZ. replace (Q2R 1) with 1 by (unfold Q2R; cbn; field). unfold Q2R at 4. cbn [Qnum Qden].
    replace (Q2R (1003 # 1000)) with (1003 / 1000) by (unfold Q2R; cbn [Qnum Qden]; reflexivity). reflexivity. }
  (* the numerator *)
  unfold loggamma1p_small_x. rewrite EC. cbn [map]. rewrite horner_mul_cons.
  pose proof (rep_mul _ _ _ _ _ _ RT RX ltac:(lia)) as RM. pose proof (rep_add _ _ _ _ _ _ RM lit0 ltac:(lia)) as RP. rewrite Rplus_0_r in RP. rewrite (rn_id (rn (t * x))) in RP by (apply (rep_format _ _ _ RM)).
  pose proof u_le as UU. pose proof (rerr (t * x)) as EP. pose proof (Rabs_pos x) as X0. pose proof eta_small as ES.
  set (e1 := Q2R et) in *. set (b1 := Q2R bt) in *. set (e2 := Q2R eq) in *. clearbody e1 b1 e2.
  assert (X1 : Rabs x <= 1) by (destruct RX as (_ & _ & R); exact R).
  assert (HP : Rabs (rn (t * x) - x * T) <= (e1 + b1) * (1 + / 10 ^ 6) * u * Rabs x + eta).
  { assert (T1 : Rabs t <= b1 + e1 * u) by (replace t with ((t - T) + T) by ring; eapply Rle_trans; [apply Rabs_triang|]; lra).
    assert (T2 : Rabs (t * x) <= (b1 + e1 * u) * Rabs x) by (rewrite Rabs_mult; apply Rmult_le_compat_r; assumption).
    assert (T3 : Rabs (t * x - x * T) <= e1 * u * Rabs x) by (replace (t * x - x * T) with ((t - T) * x) by ring; rewrite Rabs_mult; apply Rmult_le_compat_r; assumption).
    assert (T4 : u * Rabs (t * x) <= u * ((b1 + e1 * u) * Rabs x)) by (apply Rmult_le_compat_l; lra).
    replace (rn (t * x) - x * T) with ((rn (t * x) - t * x) + (t * x - x * T)) by ring. eapply Rle_trans; [apply Rabs_triang|].
    assert (A1 : 0 <= u * (e1 * Rabs x) <= / 10 ^ 15 * (e1 * Rabs x)) by (apply u_bound, Rmult_le_pos; lra). assert (A2 : 0 <= u * (b1 * Rabs x) <= / 10 ^ 15 * (b1 * Rabs x)) by (apply u_bound, Rmult_le_pos; lra).
    assert (A3 : 0 <= u * (u * (e1 * Rabs x)) <= / 10 ^ 15 * (u * (e1 * Rabs x))) by (apply u_bound; lra).
    replace (u * ((b1 + e1 * u) * Rabs x)) with (u * (b1 * Rabs x) + u * (u * (e1 * Rabs x))) in T4 by ring. replace (e1 * u * Rabs x) with (u * (e1 * Rabs x)) in T3 by ring.
    replace ((e1 + b1) * (1 + / 10 ^ 6) * u * Rabs x) with ((1 + / 10 ^ 6) * (u * (e1 * Rabs x) + u * (b1 * Rabs x))) by ring. cbn [pow] in *. lra. }
  assert (U1 : (e1 + b1) * u <= 1000 * u) by (apply Rmult_le_compat_r; lra). assert (U2 : e2 * u <= 1000 * u) by (apply Rmult_le_compat_r; lra).
  destruct (quot_ieee x T Q (rn (t * x)) qh (e1 + b1) (kl / 1000) e2 q) as (QP & B2 & EF); try lra; try assumption.
  { unfold q. lra. } { unfold q, u in *. cbn [pow]. lra. }
  eapply (rep_weaken _ 300) in RP; [|clear - LP; lia].
  destruct (rep_div 300 _ _ _ _ _ RP RQ ltac:(lra)) as (FF & FE & _).
  { eapply Rle_trans; [exact B2|]. change 2 with (pow2 1). apply bpow_le. lia. } { lia. }
  split; [exact FF|]. rewrite FE. eapply Rle_trans; [exact EF|]. apply Rplus_le_compat_r. apply Rmult_le_compat_r; [exact X0|]. apply Rmult_le_compat_r; [lra|exact CV].
Qed.

Lemma piece_neg : piece 20 (-5) 5 (Qmake 1 4) 234 815 (Qmake 76 1) = true. Proof. vm_compute. reflexivity. Qed.
Lemma piece_1 : piece 10 0 2 (Qmake 2 10) 1000 578 (Qmake 115 10) = true. Proof. vm_compute. reflexivity. Qed.
Lemma piece_2 : piece 10 2 2 (Qmake 4 10) 2650 428 (Qmake 115 10) = true. Proof. vm_compute. reflexivity. Qed.
Lemma piece_3 : piece 10 4 2 (Qmake 6 10) 6280 300 (Qmake 115 10) = true. Proof. vm_compute. reflexivity. Qed.
Lemma piece_4 : piece 10 6 3 (Qmake 9 10) 13590 188 (Qmake 115 10) = true. Proof. vm_compute. reflexivity. Qed.
Local Opaque piece.
Lemma small_ieee (fx : f64) : is_finite fx = true -> - (1 / 4) <= B2R fx <= 9 / 10 ->
  is_finite (loggamma1p_small_x f64_arith f64_lit fx) = true /\
  Rabs (B2R (loggamma1p_small_x f64_arith f64_lit fx) - wq (B2R fx)) <= (if Rlt_dec (B2R fx) 0 then 76 else 23 / 2) * u * Rabs (B2R fx) + 10 * eta.
Proof.
  intros F H. set (x := B2R fx) in *. assert (R : rep 0 fx x) by (apply rep_intro; [exact F|]; change (pow2 0) with 1; fold x; apply Rabs_le; lra).
  assert (K76 : Q2R (76 # 1) = 76) by (unfold Q2R; cbn [Qnum Qden]; field). assert (K11 : Q2R (115 # 10) = 23 / 2) by (unfold Q2R; cbn [Qnum Qden]; field).
  destruct (Rlt_dec x 0) as [N|N].
  - rewrite <- K76. apply (piece_spec _ _ _ _ _ _ _ _ _ piece_neg R); [unfold Q2R; cbn [Qnum Qden]; apply Rabs_le; lra|lra].
  - rewrite <- K11. destruct (Rle_dec x (2 / 10)) as [A|A]; [|destruct (Rle_dec x (4 / 10)) as [B|B]; [|destruct (Rle_dec x (6 / 10)) as [C|C]]].
    + apply (piece_spec _ _ _ _ _ _ _ _ _ piece_1 R); [unfold Q2R; cbn [Qnum Qden]; apply Rabs_le; lra|lra].
    + apply (piece_spec _ _ _ _ _ _ _ _ _ piece_2 R); [unfold Q2R; cbn [Qnum Qden]; apply Rabs_le; lra|lra].
    + apply (piece_spec _ _ _ _ _ _ _ _ _ piece_3 R); [unfold Q2R; cbn [Qnum Qden]; apply Rabs_le; lra|lra].
    + apply (piece_spec _ _ _ _ _ _ _ _ _ piece_4 R); [unfold Q2R; cbn [Qnum Qden]; apply Rabs_le; lra|lra].
Qed.

(** ** loggamma1p *)
Lemma main_err_nonneg x v : -1 < x -> 0 <= (110 + 5 * Rabs v + 10 * ((x + 3 / 2) * ln (x + 7))) * pow2 (-53).
Proof.
  intros H. apply Rmult_le_pos; [|apply bpow_ge_0]. pose proof (Rabs_pos v). assert (0 <= ln (x + 7)) by (rewrite <- ln_1; apply ln_mono; lra).
  assert (0 <= (x + 3 / 2) * ln (x + 7)) by (apply Rmult_le_pos; lra). lra.
Qed.
Lemma loggamma1p_error_nonneg x v : -1 < x -> 0 <= loggamma1p_error x v.
Proof.
  intros H. pose proof (main_err_nonneg x v H) as M. assert (0 <= pow2 (-53)) by apply bpow_ge_0. assert (0 <= pow2 (-1070)) by apply bpow_ge_0. unfold loggamma1p_error.
  destruct (Rle_dec x (- (1 / 4))); [exact M|]. destruct (Rlt_dec x 0); [|destruct (Rle_dec x (9 / 10)); [|exact M]].
  - apply Rplus_le_le_0_compat; [|assumption]. apply Rmult_le_pos; [lra|apply Rabs_pos].
  - apply Rplus_le_le_0_compat; [|assumption]. apply Rmult_le_pos; lra.
Qed.
Lemma eta_32 : 10 * eta <= pow2 (-1070).
Proof. unfold eta. replace (pow2 (-1070)) with (32 * pow2 (-1075)) by (change 32 with (pow2 5); rewrite <- bpow_plus; reflexivity). assert (0 < pow2 (-1075)) by apply bpow_gt_0. lra. Qed.
Lemma loggamma1p_ieee L x v : good_log L -> is_finite x = true -> -1 < B2R x <= bpow radix2 980 -> is_Gamma (1 + B2R x) v ->
  is_finite (loggamma1p f64_arith f64_lit L x) = true /\ Rabs (B2R (loggamma1p f64_arith f64_lit L x) - ln v) <= loggamma1p_error (B2R x) (ln v).
Proof.
  intros GL F HX G. assert (V : ln v = lnG (1 + B2R x)). { unfold lnG. f_equal. apply (is_Gamma_unique (1 + B2R x)); [exact G|apply Gam_correct; lra]. } rewrite V. clear V G v.
  pose proof (loggamma1p_error_nonneg (B2R x) (lnG (1 + B2R x)) ltac:(lra)) as NN.
  destruct (Req_dec (B2R x) 0) as [X0|X0]; [|destruct (Req_dec (B2R x) 1) as [X1|X1]].
  - rewrite (proj2 (proj2 (loggamma1p_domain_ieee L x)) F (or_introl X0)). split; [reflexivity|]. replace (B2R (f64_ofZ 0)) with 0 by reflexivity. rewrite X0 in NN |- *. rewrite Rplus_0_r, lnG_1 in *. rewrite Rminus_0_r, Rabs_R0. exact NN.
  - rewrite (proj2 (proj2 (loggamma1p_domain_ieee L x)) F (or_intror X1)). split; [reflexivity|]. replace (B2R (f64_ofZ 0)) with 0 by reflexivity. rewrite X1 in NN |- *.
    assert (G2 : lnG (1 + 1) = 0) by (rewrite lnG_S, lnG_1, ln_1 by lra; ring). rewrite G2 in *. rewrite Rminus_0_r, Rabs_R0. exact NN.
  - clear NN. pose proof u_le as UU. destruct (loggamma1p_branch_ieee L x F ltac:(lra) X0 X1) as [[HS ->]|[HS [-> EX]]].
    + destruct (small_ieee x F ltac:(lra)) as [FS ES]. split; [exact FS|]. destruct (small_accurate (B2R x) ltac:(lra)) as [SA _].
      set (r := loggamma1p_small_x f64_arith f64_lit x) in *. clearbody r. pose proof eta_32 as E32. pose proof (Rabs_pos (B2R x)) as AX.
      assert (U38 : 38 / 10 ^ 17 * Rabs (B2R x) <= 344 / 100 * u * Rabs (B2R x)) by (apply Rmult_le_compat_r; [exact AX|unfold u; cbn [pow]; lra]).
      assert (TR : Rabs (B2R r - lnG (1 + B2R x)) <= Rabs (B2R r - wq (B2R x)) + Rabs (wq (B2R x) - lnG (1 + B2R x))).
      { replace (B2R r - lnG (1 + B2R x)) with ((B2R r - wq (B2R x)) + (wq (B2R x) - lnG (1 + B2R x))) by ring. apply Rabs_triang. }
      assert (UX : 0 <= u * Rabs (B2R x)) by (apply Rmult_le_pos; lra).
      unfold loggamma1p_error. destruct (Rle_dec (B2R x) (- (1 / 4))) as [C|_]; [lra|]. rewrite u_pow. destruct (Rlt_dec (B2R x) 0) as [N|N]; [lra|]. destruct (Rle_dec (B2R x) (9 / 10)) as [_|C]; [|lra].
      rewrite (Rabs_pos_eq (B2R x)) in * by lra. lra.
    + set (Y := 1 + B2R x) in *. set (y := a_add f64_arith (f64_ofZ 1) x) in *.
      assert (RX : rep 980 x (B2R x)). { apply rep_intro; [exact F|]. assert (1 <= pow2 980) by (change 1 with (pow2 0); apply bpow_le; lia). apply Rabs_le. lra. }
      pose proof (rep_add _ _ _ _ _ _ (rep_ofZ 1 0 ltac:(lia) ltac:(lia)) RX ltac:(lia)) as RY. change (a_add f64_arith (a_ofZ f64_arith 1) x) with y in RY. fold Y in RY. destruct RY as (FY & EY & _).
      assert (P53 : pow2 (-53) <= Y).
      { destruct (Rle_dec (B2R x) (- (1 / 2))) as [S|S]; [|apply Rle_trans with (1 / 2); [change (pow2 (-53)) with (/ 9007199254740992); lra|unfold Y; lra]].
        destruct (EX S) as [_ EE]. rewrite <- EE. destruct (one_plus x F ltac:(lra)) as [[_ C]|(_ & _ & C)]; [lra|exact C]. }
      assert (YP : 0 < Y) by (unfold Y; lra).
      assert (HXY : Rabs (B2R y - Y) <= 1001 / 1000 * u * Y). { rewrite EY. pose proof (rerr Y) as R. rewrite (Rabs_pos_eq Y) in R by lra.
        pose proof (eta_le Y ltac:(apply Rle_trans with (pow2 (-53)); [apply bpow_le; lia|exact P53])) as ET. pose proof (u_bound Y ltac:(lra)). cbn [pow] in *. lra. }
      destruct (lgamma_main_ieee L y Y GL FY ltac:(unfold Y; unfold Y in P53; lra) HXY) as [FM EM]. split; [exact FM|].
      set (r := lgamma_main f64_arith f64_lit L y) in *. clearbody r. destruct (lanczosE_accurate Y YP) as [LA _].
      assert (TR : Rabs (B2R r - lnG Y) <= Rabs (B2R r - lnE Y) + Rabs (lnE Y - lnG Y)). { replace (B2R r - lnG Y) with ((B2R r - lnE Y) + (lnE Y - lnG Y)) by ring. apply Rabs_triang. }
      assert (AE : Rabs (lnE Y) <= Rabs (lnG Y) + 382 / 10 ^ 18). { replace (lnE Y) with ((lnE Y - lnG Y) + lnG Y) by ring. eapply Rle_trans; [apply Rabs_triang|]. lra. }
      assert (LM : ln (al Y) <= ln (B2R x + 7)). { apply ln_mono; [apply al_pos; lra|]. unfold al, Y. rewrite gl_val. lra. }
      pose proof (ln_al_ge Y ltac:(lra)) as L1.
      assert (KM : 0 <= (Y + 1 / 2) * ln (al Y) <= (B2R x + 3 / 2) * ln (B2R x + 7)). { split; [apply Rmult_le_pos; lra|]. replace (Y + 1 / 2) with (B2R x + 3 / 2) by (unfold Y; lra). apply Rmult_le_compat_l; [unfold Y in YP; lra|exact LM]. }
      assert (FIN : Rabs (B2R r - lnG Y) <= (110 + 5 * Rabs (lnG Y) + 10 * ((B2R x + 3 / 2) * ln (B2R x + 7))) * u).
      { assert (U3 : 382 / 10 ^ 18 <= 345 / 100 * u) by (unfold u; cbn [pow]; lra). pose proof (Rabs_pos (lnG Y)) as LP.
        assert (M : (105 + 41 / 10 * Rabs (lnE Y) + 91 / 10 * ((Y + 1 / 2) * ln (al Y))) * u <= (106 + 41 / 10 * Rabs (lnG Y) + 91 / 10 * ((B2R x + 3 / 2) * ln (B2R x + 7))) * u) by (apply Rmult_le_compat_r; [lra|cbn [pow] in *; lra]).
        assert (M2 : (106 + 41 / 10 * Rabs (lnG Y) + 91 / 10 * ((B2R x + 3 / 2) * ln (B2R x + 7))) * u + 345 / 100 * u <= (110 + 5 * Rabs (lnG Y) + 10 * ((B2R x + 3 / 2) * ln (B2R x + 7))) * u).
        { rewrite <- Rmult_plus_distr_r. apply Rmult_le_compat_r; lra. }
        lra. }
      unfold loggamma1p_error. rewrite u_pow. destruct (Rle_dec (B2R x) (- (1 / 4))) as [C|C]; [exact FIN|]. destruct (Rlt_dec (B2R x) 0) as [C1|C1]; [lra|]. destruct (Rle_dec (B2R x) (9 / 10)) as [C2|C2]; [lra|exact FIN].
Qed.
Lemma loggamma1p_loop_ieee L m p step pout ostep (out : mem f64) l : good_log L -> view m p step l -> writable out pout ostep (length l) ->
  exists r, writes (unary_loop (fun x => ret (loggamma1p f64_arith f64_lit L x)) m p (Z.of_nat (length l)) step pout ostep out) out pout ostep r /\
    List.Forall2 (fun x y => (is_nan x = true \/ x = B754_infinity true \/ (is_finite x = true /\ B2R x <= -1) -> y = B754_nan) /\ (x = B754_infinity false -> y = B754_infinity false) /\
      (is_finite x = true -> -1 < B2R x <= bpow radix2 980 -> forall v, is_Gamma (1 + B2R x) v -> is_finite y = true /\ Rabs (B2R y - ln v) <= loggamma1p_error (B2R x) (ln v))) l r.
Proof.
  intros GL V W. eexists. split; [apply (special_loop _ B754_nan); [exact V|exact W|]; intros; discriminate|].
  clear V W. induction l as [|x l IH]; constructor; [|exact IH]. cbn [ret]. destruct (loggamma1p_domain_ieee L x) as (A & B & _). split; [exact A|]. split; [exact B|].
  intros F X v G. now apply loggamma1p_ieee.
Qed.
