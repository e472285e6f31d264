(** * P_DebyeF: the rounding error of debye1 in IEEE double (C51) *)
From Coq Require Import ZArith QArith Qabs Qreals Reals List Bool Lia Lra.
From Coquelicot Require Import Coquelicot.
From Flocq Require Import Core BinarySingleNaN.
From Verif Require Import CSem CSemP Num NumP NumF M_Log1p S_Log1p P_Log1p P_Log1pF M_Special S_Special P_LogFact P_Expint P_Debye P_Debye1 P_SpecialF P_DebyeQ.
Import ListNotations.
Open Scope R_scope.

#[local] Instance p53 : Prec_gt_0 53 := eq_refl.
#[local] Instance v53 : Valid_exp fexp64 := FLT_exp_valid _ _.

(** ** the integral between nearby arguments *)
Lemma exp_quad t : 0 <= t -> 1 + t + t * t / 4 <= exp t.
Proof.
  intros H. replace (exp t) with (exp (t / 2) * exp (t / 2)) by (rewrite <- exp_plus; f_equal; field). pose proof (exp_ineq1_le (t / 2)). nra.
Qed.
Lemma gD_le t : 0 < t -> gD t <= 4 / (4 + t).
Proof.
  intros H. unfold debye_integrand. destruct (Req_EM_T t 0) as [E|_]; [lra|]. pose proof (exp_quad t ltac:(lra)) as X.
  assert (P : 0 < t + t * t / 4) by nra. apply Rle_trans with (t / (t + t * t / 4)).
  - apply Rmult_le_compat_l; [lra|]. apply Rinv_le_contravar; lra.
  - right. field. lra.
Qed.
Lemma Ix_close x y K : 0 < K -> (forall t, Rmin x y <= t -> gD t <= K) -> Rabs (Ix x - Ix y) <= K * Rabs (x - y).
Proof.
  intros K0 H. destruct (Rtotal_order x y) as [L|[->|L]].
  - destruct (MVT_cor2 Ix _ x y L (fun c _ => proj1 (is_derive_Reals Ix c _) (Ix_derive c))) as (c & E & C). rewrite Rmin_left in H by lra.
    rewrite (Rabs_minus_sym (Ix x)), (Rabs_minus_sym x), E, Rabs_mult. apply Rmult_le_compat_r; [apply Rabs_pos|]. rewrite Rabs_pos_eq by (left; apply gD_pos). apply H. lra.
  - rewrite !Rminus_diag_eq, Rabs_R0 by reflexivity. lra.
  - destruct (MVT_cor2 Ix _ y x L (fun c _ => proj1 (is_derive_Reals Ix c _) (Ix_derive c))) as (c & E & C). rewrite Rmin_right in H by lra.
    rewrite E, Rabs_mult. apply Rmult_le_compat_r; [apply Rabs_pos|]. rewrite Rabs_pos_eq by (left; apply gD_pos). apply H. lra.
Qed.
Lemma Ix_pos x : 0 < x -> 0 < Ix x.
Proof.
  intros L. destruct (MVT_cor2 Ix _ 0 x L (fun c _ => proj1 (is_derive_Reals Ix c _) (Ix_derive c))) as (c & E & C). rewrite Ix_0, !Rminus_0_r in E. rewrite E. apply Rmult_lt_0_compat; [apply gD_pos|exact L].
Qed.

(** the function an entry of the tables approximates *)
Definition DX (x : R) : R := if Req_EM_T x 0 then 1 else Ix x / x.
Lemma DX_D1 x : is_D1 x (DX x).
Proof. apply D1_Ix. unfold DX. destruct (Req_EM_T x 0); [left|right]; auto. Qed.
Lemma DX_pos x : 0 <= x -> 0 < DX x.
Proof. intros H. unfold DX. destruct (Req_EM_T x 0); [lra|]. apply Rdiv_lt_0_compat; [apply Ix_pos|]; lra. Qed.
Lemma DX_neq x : x <> 0 -> DX x = Ix x / x.
Proof. intros H. unfold DX. destruct (Req_EM_T x 0); [contradiction|reflexivity]. Qed.
Definition target (sc : bool) (x : R) : R := if sc then Ix x else DX x.

(** all arithmetic at once: r is the computed approximant, P, P' its exact values at x and at the nearest point x' of the interval *)
Lemma combine K lo f f' r P P' e sh : 0 <= K <= 500 -> 0 < f' -> Rabs (r - P) <= e -> Rabs (P - P') <= sh -> Rabs (P' - f') <= 32 / 10 ^ 16 * f' ->
  e + sh <= K * pow2 (-53) * lo -> lo <= (1 + 32 / 10 ^ 16) * f' -> Rabs (f - f') <= 31 / 10 ^ 16 * f' ->
  Rabs (r - f) <= (K * pow2 (-53) + 65 / 10 ^ 16) * f /\ 0 < f.
Proof.
  intros HK F R1 R2 R3 T L S. assert (U : 0 < pow2 (-53) <= 112 / 10 ^ 18) by (cbn; lra). set (u := pow2 (-53)) in *. clearbody u.
  assert (KU : 0 <= K * u <= 56 / 10 ^ 15). { split; [apply Rmult_le_pos; lra|]. apply Rle_trans with (500 * (112 / 10 ^ 18)); [apply Rmult_le_compat; lra|cbn [pow]; lra]. }
  set (k := K * u) in *. clearbody k. apply Rabs_le_inv in S.
  assert (FP : 0 < f) by (cbn [pow] in *; lra). split; [|exact FP].
  assert (F1 : f' <= (1 + 32 / 10 ^ 16) * f) by (cbn [pow] in *; lra).
  assert (A : Rabs (r - f) <= k * lo + 63 / 10 ^ 16 * f').
  { replace (r - f) with ((r - P) + (P - P') + (P' - f') + (f' - f)) by ring. eapply Rle_trans; [apply Rabs_triang|]. eapply Rle_trans; [apply Rplus_le_compat_r, Rabs_triang|].
    eapply Rle_trans; [apply Rplus_le_compat_r, Rplus_le_compat_r, Rabs_triang|]. assert (Rabs (f' - f) <= 31 / 10 ^ 16 * f') by (apply Rabs_le; lra). lra. }
  assert (B : k * lo <= k * ((1 + 32 / 10 ^ 16) * ((1 + 32 / 10 ^ 16) * f))). { apply Rmult_le_compat_l; [lra|]. eapply Rle_trans; [exact L|]. apply Rmult_le_compat_l; [cbn [pow]; lra|exact F1]. }
  assert (C : k * ((1 + 32 / 10 ^ 16) * ((1 + 32 / 10 ^ 16) * f)) <= k * f + 1 / 10 ^ 17 * f).
  { replace (k * ((1 + 32 / 10 ^ 16) * ((1 + 32 / 10 ^ 16) * f))) with (k * f + k * ((1 + 32 / 10 ^ 16) * (1 + 32 / 10 ^ 16) - 1) * f) by ring.
    apply Rplus_le_compat_l, Rmult_le_compat_r; [lra|]. cbn [pow] in *. lra. }
  cbn [pow] in *. lra.
Qed.

Lemma cells_ok_nth sc K a w : forall cells k j c, cells_ok sc K a w k cells = true -> nth_error cells j = Some c -> cell_ok sc (K (k + Z.of_nat j)%Z) (a + w * (k + Z.of_nat j)) w c = true.
Proof.
  induction cells as [|c0 cells IH]; intros k [|j] c H E; try discriminate; cbn [cells_ok] in H; apply andb_prop in H; destruct H as [H1 H2].
  - cbn in E. injection E as <-. now rewrite Z.add_0_r.
  - cbn [nth_error] in E. specialize (IH _ _ _ H2 E). replace (k + Z.of_nat (S j))%Z with (k + 1 + Z.of_nat j)%Z by lia. exact IH.
Qed.

Definition clamp (a b x : R) : R := Rmax a (Rmin b x).
Lemma clamp_spec a b x : a <= b -> a <= clamp a b x <= b.
Proof. intros H. unfold clamp, Rmax, Rmin. destruct (Rle_dec b x), (Rle_dec a _); lra. Qed.
Lemma clamp_near a b x t : a <= b -> 0 <= t -> a - t <= x <= b + t -> Rabs (x - clamp a b x) <= t.
Proof. intros H T X. unfold clamp, Rmax, Rmin. apply Rabs_le. destruct (Rle_dec b x), (Rle_dec a _); lra. Qed.
Lemma clamp_pos a b x : 0 <= a <= b -> 0 < x -> a = 0 -> 0 < b -> 0 < clamp a b x.
Proof. intros H X -> B. unfold clamp, Rmax, Rmin. destruct (Rle_dec b x), (Rle_dec 0 _); lra. Qed.

(** one entry, for a double x in its interval up to a relative 4e-16 *)
Lemma cell_ieee sc K A W c fx x : cell_ok sc K A W c = true -> (0 <= A)%Z -> (A + W <= 400)%Z -> (W = 2 \/ W = 10)%Z -> (0 <= K <= 500)%Z -> (sc = true -> 100 <= A)%Z ->
  (forall t, IZR A / 10 <= t <= IZR (A + W) / 10 -> Rabs (polyR t c - target sc t) <= 32 / 10 ^ 16 * target sc t) ->
  rep 6 fx x -> 0 <= x -> IZR A / 10 - 4 / 10 ^ 16 * x <= x <= IZR (A + W) / 10 + 4 / 10 ^ 16 * x ->
  exists r, rep 6 (poly f64_arith f64_lit fx c) r /\ Rabs (r - target sc x) <= (IZR K * pow2 (-53) + 65 / 10 ^ 16) * target sc x /\ 0 < target sc x.
Proof.
  intros OK A0 AW HW HK HS HT Rx X0 X. unfold cell_ok in OK.
  destruct (chk (cc A W) (ch W) (cr A W) c) as [[[[v l] b] e]|] eqn:CK; [|discriminate].
  assert (AR : 0 <= IZR A <= 400) by (split; apply IZR_le; lia). assert (WR : 2 <= IZR W <= 10) by (split; apply IZR_le; lia).
  assert (AWR : IZR (A + W) = IZR A + IZR W) by apply plus_IZR. assert (AW4 : IZR (A + W) <= 400) by (apply IZR_le; lia).
  assert (Ecc : Q2R (cc A W) = IZR A / 10 + IZR W / 20) by (unfold cc; rewrite Q2R_make, plus_IZR, !mult_IZR; field).
  assert (Ech : Q2R (ch W) = IZR W / 20 + / 1000) by (unfold ch; rewrite Q2R_make, plus_IZR, !mult_IZR; field).
  assert (Ecr : Q2R (cr A W) = IZR (A + W) / 10 + / 1000) by (unfold cr; rewrite Q2R_make, plus_IZR, !mult_IZR; field).
  assert (RC : region (cc A W) (ch W) (cr A W) (Q2R (cc A W))).
  { unfold region. rewrite Rminus_diag_eq, Rabs_R0, Ecc, Ech, Ecr by reflexivity. lra. }
  destruct (chk_spec _ _ _ RC c v l b e CK) as (FE & V & L & _ & D & FL & E0).
  assert (X41 : x <= 41) by (cbn [pow] in *; lra).
  set (a := IZR A / 10) in *. set (z := IZR (A + W) / 10) in *. assert (AZ : a <= z) by (unfold a, z; lra). assert (a0 : 0 <= a) by (unfold a; lra).
  assert (T0 : 0 <= 4 / 10 ^ 16 * x <= 1 / 1000) by (cbn [pow]; lra).
  set (x' := clamp a z x). pose proof (clamp_spec a z x AZ) as X'. fold x' in X'. pose proof (clamp_near a z x _ AZ (proj1 T0) X) as XN. fold x' in XN.
  assert (RX : region (cc A W) (ch W) (cr A W) x). { unfold region. rewrite Ecc, Ech, Ecr. fold z. split; [apply Rabs_le; unfold a, z in *; lra|lra]. }
  assert (RX' : region (cc A W) (ch W) (cr A W) x'). { unfold region. rewrite Ecc, Ech, Ecr. fold z. split; [apply Rabs_le; unfold a, z in *; lra|lra]. }
  destruct (FL fx x Rx RX) as (r & R1 & R2). exists r. split; [exact R1|].
  assert (G := HT x' X').
  (* positivity of the target at x' *)
  assert (F' : 0 < target sc x').
  { unfold target. destruct sc; [|apply DX_pos; lra]. apply Ix_pos. assert (100 <= IZR A) by (apply IZR_le, HS; reflexivity). unfold a in X'. lra. }
  assert (SH : Rabs (polyR x c - polyR x' c) <= Q2R (rmul (rmul delta (cr A W)) l)).
  { eapply Rle_trans; [apply (D x x' RX RX')|]. rewrite !rmul_R. rewrite (Rmult_comm _ (Q2R l)). apply Rmult_le_compat_l; [exact L|]. eapply Rle_trans; [exact XN|].
    assert (Ed : Q2R delta = 4 / 10 ^ 16) by (unfold delta; rewrite Q2R_make; change (Z.pos (10 ^ 16)) with (10 ^ 16)%Z; cbn [pow]; lra).
    rewrite Ed. apply Rmult_le_compat_l; [cbn [pow]; lra|]. rewrite Ecr. fold z. lra. }
  assert (KR : 0 <= IZR K <= 500) by (split; apply IZR_le; lia).
  assert (GD : forall lo, Qle_bool (radd e (rmul (rmul delta (cr A W)) l)) (rmul (rmul (inject_Z K) uQ) lo) = true -> Q2R e + Q2R (rmul (rmul delta (cr A W)) l) <= IZR K * pow2 (-53) * Q2R lo).
  { intros lo H. apply Qle_R in H. rewrite radd_R, (rmul_R (rmul _ uQ)), (rmul_R _ uQ), Q2R_Z, uQ_R in H. exact H. }
  assert (EA : Q2R (A # 10) = a) by reflexivity.
  assert (EP : Q2R (polyQ (A # 10) c) = polyR a c) by (rewrite polyQ_R by exact FE; now rewrite EA).
  assert (GA := HT a ltac:(lra)).
  assert (LOW : exists lo, 15 / 100 <= lo /\ (sc = true -> 16 / 10 <= lo) /\ Q2R e + Q2R (rmul (rmul delta (cr A W)) l) <= IZR K * pow2 (-53) * lo /\ lo <= (1 + 32 / 10 ^ 16) * target sc x').
  { destruct sc.
    - apply andb_prop in OK. destruct OK as [O1 O2]. apply GD in O2. apply Qle_R in O1. rewrite EP, Q2R_make in O1. rewrite Q2R_make in O2. exists (IZR 16 / IZR 10). split; [lra|]. split; [lra|]. split; [exact O2|].
      eapply Rle_trans; [exact O1|]. unfold target in *. pose proof (Ix_mono a x' ltac:(lra)). apply Rabs_le_inv in GA. cbn [pow] in *. lra.
    - apply orb_prop in OK. destruct OK as [OK|OK].
      + apply andb_prop in OK. destruct OK as [O1 O2]. apply GD in O2. apply Qle_R in O1. rewrite Q2R_make in O1. exists (Q2R (v - rmul (ch W) l)). split; [lra|]. split; [discriminate|]. split; [exact O2|].
        rewrite Q2R_minus, rmul_R, <- V. pose proof (D _ _ RX' RC) as DV. destruct RX' as [RX' _]. assert (Q2R l * Rabs (x' - Q2R (cc A W)) <= Q2R l * Q2R (ch W)) by (apply Rmult_le_compat_l; assumption).
        apply Rabs_le_inv in DV, G. cbn [pow] in *. lra.
      + apply andb_prop in OK. destruct OK as [OK O2]. apply andb_prop in OK. destruct OK as [O3 O1]. apply Z.ltb_lt in O3. apply IZR_lt in O3. apply GD in O2. apply Qle_R in O1. rewrite Q2R_make in O1. eexists. split; [|split; [discriminate|split; [exact O2|]]]; [lra|].
        rewrite rmul_R, EP, Q2R_make, Z2Pos.id, AWR by (apply lt_IZR; rewrite AWR; lra).
        assert (AP : 0 < a) by (unfold a; lra). unfold target in *. rewrite (DX_neq a) in GA by lra. rewrite (DX_neq x') by lra. pose proof (Ix_mono a x' ltac:(lra)) as M. pose proof (Ix_pos a AP) as IP.
        replace (IZR A / (IZR A + IZR W)) with (a / z) by (unfold a, z; rewrite AWR; field; lra).
        assert (GA' : polyR a c * a <= (1 + 32 / 10 ^ 16) * Ix a).
        { apply Rabs_le_inv in GA. assert (polyR a c <= (1 + 32 / 10 ^ 16) * (Ix a / a)) by lra. apply (Rmult_le_compat_r a) in H; [|lra]. replace ((1 + 32 / 10 ^ 16) * (Ix a / a) * a) with ((1 + 32 / 10 ^ 16) * Ix a) in H; [exact H|]. set (q := 1 + 32 / 10 ^ 16). clearbody q. field. lra. }
        replace (polyR a c * (a / z)) with (polyR a c * a * / z) by (unfold Rdiv; ring). apply Rle_trans with ((1 + 32 / 10 ^ 16) * Ix a * / z); [apply Rmult_le_compat_r; [left; apply Rinv_0_lt_compat; lra|exact GA']|].
        set (q := 1 + 32 / 10 ^ 16) in *. replace (q * (Ix x' / x')) with (q * Ix x' * / x') by (unfold Rdiv; ring). assert (Q1 : 0 <= q) by (unfold q; cbn [pow]; lra). apply Rmult_le_compat; [apply Rmult_le_pos; lra|left; apply Rinv_0_lt_compat; lra| |apply Rinv_le_contravar; lra].
        apply Rmult_le_compat_l; [exact Q1|exact M]. }
  destruct LOW as (lo & L15 & L16 & T & LF).
  assert (F15 : 14 / 100 <= target sc x') by (cbn [pow] in *; lra).
  assert (ST : Rabs (target sc x - target sc x') <= 31 / 10 ^ 16 * target sc x').
  { destruct sc; unfold target in *.
    - assert (100 <= IZR A) by (apply IZR_le, HS; reflexivity). assert (a10 : 10 <= a) by (unfold a; lra). specialize (L16 eq_refl).
      assert (XL : 9 <= x) by (cbn [pow] in *; lra).
      assert (MN : 9 / 10 * x <= Rmin x x'). { apply Rabs_le_inv in XN. apply Rmin_glb; cbn [pow] in *; lra. }
      assert (C := Ix_close x x' (4 / (9 / 10 * x)) ltac:(apply Rdiv_lt_0_compat; lra)). specialize (C ltac:(intros t Ht; eapply Rle_trans; [apply gD_le; lra|]; apply Rmult_le_compat_l; [lra|]; apply Rinv_le_contravar; lra)).
      eapply Rle_trans; [exact C|]. apply Rle_trans with (4 / (9 / 10 * x) * (4 / 10 ^ 16 * x)); [apply Rmult_le_compat_l; [left; apply Rdiv_lt_0_compat; lra|exact XN]|].
      replace (4 / (9 / 10 * x) * (4 / 10 ^ 16 * x)) with (160 / 9 / 10 ^ 16) by (set (q := 10 ^ 16); assert (0 < q) by (apply pow_lt; lra); clearbody q; field; lra). cbn [pow] in *. lra.
    - destruct (Req_dec x x') as [<-|NE]; [rewrite Rminus_diag_eq, Rabs_R0 by reflexivity; cbn [pow]; lra|].
      assert (XP : 0 < x). { destruct X0 as [X0|X0]; [exact X0|exfalso]. rewrite <- X0, Rmult_0_r in XN. apply NE. apply Rabs_le_inv in XN. lra. }
      assert (XP' : 0 < x'). { apply Rabs_le_inv in XN. cbn [pow] in *. lra. }
      rewrite (DX_neq x) by lra. rewrite (DX_neq x') in * by lra.
      assert (C := Ix_close x x' 1 ltac:(lra)). specialize (C ltac:(intros t Ht; assert (0 < t) by (eapply Rlt_le_trans; [|exact Ht]; apply Rmin_glb_lt; assumption); eapply Rle_trans; [apply gD_le; assumption|]; apply (Rmult_le_reg_r (4 + t)); [lra|]; unfold Rdiv; rewrite Rmult_assoc, Rinv_l by lra; lra)).
      rewrite Rmult_1_l in C. replace (Ix x / x - Ix x' / x') with ((Ix x - Ix x') / x + Ix x' / x' * ((x' - x) / x)) by (field; lra).
      eapply Rle_trans; [apply Rabs_triang|]. rewrite Rabs_mult, (Rabs_pos_eq (Ix x' / x')) by lra. unfold Rdiv at 1 3. rewrite !Rabs_mult, (Rabs_pos_eq (/ x)) by (left; now apply Rinv_0_lt_compat). rewrite (Rabs_minus_sym x').
      assert (Q : Rabs (x - x') * / x <= 4 / 10 ^ 16). { apply (Rmult_le_reg_r x); [exact XP|]. rewrite Rmult_assoc, Rinv_l, Rmult_1_r by lra. exact XN. }
      assert (Q1 : Rabs (Ix x - Ix x') * / x <= 4 / 10 ^ 16). { eapply Rle_trans; [|exact Q]. apply Rmult_le_compat_r; [left; now apply Rinv_0_lt_compat|exact C]. }
      set (d := Ix x' / x') in *. assert (d * (Rabs (x - x') * / x) <= d * (4 / 10 ^ 16)) by (apply Rmult_le_compat_l; lra). cbn [pow] in *. lra. }
  apply (combine (IZR K) lo _ (target sc x') r (polyR x c) (polyR x' c) (Q2R e) (Q2R (rmul (rmul delta (cr A W)) l))); assumption.
Qed.

(** ** debye1 at nonnegative arguments *)
Lemma good_target sc c t : 0 < t -> good sc c t -> Rabs (polyR t c - target sc t) <= 32 / 10 ^ 16 * target sc t.
Proof.
  intros T G. unfold target. destruct sc; [exact G|]. rewrite DX_neq by lra. exact (good_div false c t (Ix t / t) T G eq_refl).
Qed.
Lemma units_10 x : 10 <= debye_units x \/ 20 <= x.
Proof. unfold debye_units. destruct (Rle_dec x 2); [lra|]. destruct (Rlt_dec x 20); lra. Qed.
Lemma units_ge x : 6 <= debye_units x <= 500.
Proof. unfold debye_units. destruct (Rle_dec x 2); [lra|]. destruct (Rlt_dec x 20); lra. Qed.
Definition bnd (k f r : R) : Prop := Rabs (r - f) <= k * f.
Lemma bnd_units n x f r : IZR n <= debye_units x -> 0 < f -> Rabs (r - f) <= (IZR n * pow2 (-53) + 65 / 10 ^ 16) * f -> Rabs (r - f) <= (debye_units x * pow2 (-53) + 65 / 10 ^ 16) * f.
Proof. intros H F R. eapply Rle_trans; [exact R|]. apply Rmult_le_compat_r; [lra|]. apply Rplus_le_compat_r, Rmult_le_compat_r; [apply bpow_ge_0|exact H]. Qed.
Lemma div_bound k r f x : 0 <= k <= / 1000 -> 0 < f -> 0 < x -> Rabs (r - f) <= k * f -> Rabs (rn (r / x) - f / x) <= (k + 2 / 10 ^ 16) * (f / x) + pow2 (-1075).
Proof.
  intros K F X R. assert (I : 0 < / x) by now apply Rinv_0_lt_compat. assert (FX : 0 < f / x) by (apply Rmult_lt_0_compat; assumption).
  assert (D : Rabs (r / x - f / x) <= k * (f / x)).
  { unfold Rdiv. rewrite <- Rmult_minus_distr_r, Rabs_mult, (Rabs_pos_eq (/ x)) by lra. rewrite <- Rmult_assoc. apply Rmult_le_compat_r; [lra|exact R]. }
  assert (A : Rabs (r / x) <= (1 + k) * (f / x)). { replace (r / x) with ((r / x - f / x) + f / x) by ring. eapply Rle_trans; [apply Rabs_triang|]. rewrite (Rabs_pos_eq (f / x)) by lra. lra. }
  pose proof (rn_err_le _ _ A) as E. replace (rn (r / x) - f / x) with ((rn (r / x) - r / x) + (r / x - f / x)) by ring. eapply Rle_trans; [apply Rabs_triang|].
  assert (U : 0 < pow2 (-53) <= 112 / 10 ^ 18) by (cbn; lra). set (u := pow2 (-53)) in *. clearbody u. set (w := f / x) in *. clearbody w.
  assert (u * ((1 + k) * w) <= 2 / 10 ^ 16 * w). { rewrite <- Rmult_assoc. apply Rmult_le_compat_r; [lra|]. apply Rle_trans with (112 / 10 ^ 18 * (1 + / 1000)); [apply Rmult_le_compat; lra|cbn [pow]; lra]. }
  lra.
Qed.
Lemma units_k x : 0 <= debye_units x * pow2 (-53) + 65 / 10 ^ 16 <= / 1000.
Proof.
  pose proof (units_ge x) as U. assert (P : 0 < pow2 (-53) <= 112 / 10 ^ 18) by (cbn; lra). set (u := pow2 (-53)) in *. clearbody u. set (n := debye_units x) in *. clearbody n.
  assert (0 <= n * u <= 500 * (112 / 10 ^ 18)) by (split; [apply Rmult_le_pos|apply Rmult_le_compat]; lra). cbn [pow] in *. lra.
Qed.
Lemma tab0 : cells_ok false K0 0 2 0 debye1_cells_0 = true.
Proof. pose proof tables_ok as H. apply andb_prop in H. destruct H as [H _]. apply andb_prop in H. destruct H as [H _]. apply andb_prop in H. exact (proj1 H). Qed.
Lemma tab1 : cells_ok true K1 100 2 0 debye1_cells_1 = true.
Proof. pose proof tables_ok as H. apply andb_prop in H. destruct H as [H _]. apply andb_prop in H. destruct H as [H _]. apply andb_prop in H. exact (proj2 H). Qed.
Lemma tab2 : cells_ok true K23 200 10 0 debye1_cells_2 = true.
Proof. pose proof tables_ok as H. apply andb_prop in H. destruct H as [H _]. apply andb_prop in H. exact (proj2 H). Qed.
Lemma tab3 : cells_ok true K23 300 10 0 debye1_cells_3 = true.
Proof. pose proof tables_ok as H. apply andb_prop in H. exact (proj2 H). Qed.
Local Opaque cell_ok debye1_cells_0 debye1_cells_1 debye1_cells_2 debye1_cells_3.
Lemma scaled_ieee K A W c (x : f64) : cell_ok true K A W c = true -> (100 <= A)%Z -> (A + W <= 400)%Z -> (W = 2 \/ W = 10)%Z -> (0 <= K <= 500)%Z -> IZR K <= debye_units (B2R x) ->
  (forall t, IZR A / 10 <= t <= IZR (A + W) / 10 -> good true c t) -> is_finite x = true -> 0 <= B2R x ->
  IZR A / 10 - 4 / 10 ^ 16 * B2R x <= B2R x <= IZR (A + W) / 10 + 4 / 10 ^ 16 * B2R x ->
  exists r, rep 6 (a_div f64_arith (poly f64_arith f64_lit x c) x) r /\ Rabs (r - DX (B2R x)) <= (debye_units (B2R x) * pow2 (-53) + 67 / 10 ^ 16) * DX (B2R x) + pow2 (-1075).
Proof.
  intros OK HA HAW HW HK HU HG Fx X0 X. assert (A100 : 100 <= IZR A) by now apply IZR_le. assert (AW4 : IZR (A + W) <= 400) by now apply IZR_le.
  assert (XR : 9 <= B2R x <= 41) by (cbn [pow] in *; lra).
  assert (Rx : rep 6 x (B2R x)) by (apply rep_intro; [exact Fx|]; rewrite Rabs_pos_eq by lra; change (pow2 6) with 64; lra).
  destruct (cell_ieee true K A W c x (B2R x) OK ltac:(lia) HAW HW HK ltac:(intros _; exact HA)) as (r & R1 & R2 & R3); try assumption.
  apply (bnd_units K (B2R x)) in R2; [|exact HU|exact R3]. unfold target in *.
  pose proof (div_bound _ r (Ix (B2R x)) (B2R x) (units_k (B2R x)) R3 ltac:(lra) R2) as D. rewrite DX_neq by lra.
  exists (rn (r / B2R x)). split.
  - apply (rep_div 6 6); [exact R1|exact Rx|lra| |lia]. destruct R1 as (_ & _ & R1). unfold Rdiv. rewrite Rabs_mult. apply Rle_trans with (pow2 6 * 1); [|lra].
    apply Rmult_le_compat; [apply Rabs_pos|apply Rabs_pos|exact R1|]. rewrite Rabs_pos_eq by (left; apply Rinv_0_lt_compat; lra). rewrite <- Rinv_1. apply Rinv_le_contravar; lra.
  - eapply Rle_trans; [exact D|]. apply Rplus_le_compat_r, Rmult_le_compat_r; [left; apply Rdiv_lt_0_compat; lra|]. cbn [pow]. lra.
Qed.
Lemma tail_ieee (x : f64) : is_finite x = true -> 40 - 4 / 10 ^ 16 * B2R x <= B2R x ->
  exists r, rep 6 (a_div f64_arith (f64_lit 16449340668482264 (-16)) x) r /\ Rabs (r - DX (B2R x)) <= 30 / 10 ^ 16 * DX (B2R x) + pow2 (-1075).
Proof.
  intros Fx X. assert (XL : 39 <= B2R x) by (cbn [pow] in *; lra). destruct table_spec as (_ & _ & _ & _ & T).
  assert (EC : IZR 16449340668482264 * powerRZ 10 (-16) = C0). { unfold C0. change (-16)%Z with (- Z.of_nat 16)%Z. rewrite p10. reflexivity. }
  assert (CB : 16 / 10 <= C0 <= 17 / 10) by (unfold C0; cbn [pow]; lra).
  assert (RL : rep 1 (f64_lit 16449340668482264 (-16)) (rn C0)). { rewrite <- EC. apply lit_rep; [lia|]. rewrite EC, Rabs_pos_eq by lra. change (pow2 1) with 2. lra. }
  assert (EL := rn_err_le C0 2 ltac:(rewrite Rabs_pos_eq; lra)). pose proof pow53 as (P1 & P2 & P3 & P4).
  assert (IB : Rabs (C0 - Ix (B2R x)) <= 24 / 10 ^ 16).
  { destruct (Rle_dec 40 (B2R x)) as [L|L].
    - pose proof (Ix_tail _ L) as TL. apply Rabs_le_inv in T. apply Rabs_le. cbn [pow] in *. lra.
    - assert (C := Ix_close (B2R x) 40 (1 / 10) ltac:(lra)). specialize (C ltac:(intros t Ht; rewrite Rmin_left in Ht by lra; eapply Rle_trans; [apply gD_le; lra|]; apply (Rmult_le_reg_r (4 + t)); [lra|]; unfold Rdiv; rewrite Rmult_assoc, Rinv_l by lra; lra)).
      assert (N : Rabs (B2R x - 40) <= 17 / 10 ^ 15) by (apply Rabs_le; cbn [pow] in *; lra).
      apply Rabs_le_inv in T, C. apply Rabs_le. cbn [pow] in *. lra. }
  assert (IP : 0 < Ix (B2R x)) by (apply Rabs_le_inv in IB; cbn [pow] in *; lra).
  assert (B : Rabs (rn C0 - Ix (B2R x)) <= 27 / 10 ^ 16 * Ix (B2R x)).
  { apply Rabs_le_inv in IB, EL. assert (U2 : pow2 (-53) <= 112 / 10 ^ 18) by (cbn; lra). apply Rabs_le. cbn [pow] in *. lra. }
  pose proof (div_bound (27 / 10 ^ 16) (rn C0) (Ix (B2R x)) (B2R x) ltac:(cbn [pow]; lra) IP ltac:(lra) B) as D. rewrite DX_neq by lra.
  assert (RC : 0 <= rn C0 <= 2). { apply Rabs_le_inv in EL. cbn [pow] in *. lra. }
  exists (rn (rn C0 / B2R x)). split.
  - apply (rep_weaken 1); [lia|]. apply (rep_div 1 1024); [exact RL|now apply fin_rep|lra| |lia].
    rewrite Rabs_pos_eq by (apply Rmult_le_pos; [lra|left; apply Rinv_0_lt_compat; lra]). change (pow2 1) with 2. apply (Rmult_le_reg_r (B2R x)); [lra|]. unfold Rdiv. rewrite Rmult_assoc, Rinv_l by lra. nra.
  - eapply Rle_trans; [exact D|]. apply Rplus_le_compat_r, Rmult_le_compat_r; [left; apply Rdiv_lt_0_compat; lra|]. cbn [pow]. lra.
Qed.
Lemma debye1_pos_ieee (x : f64) : is_finite x = true -> 0 <= B2R x ->
  exists fr r, debye1_pos f64_arith f64_lit f64_toint x = ret fr /\ rep 6 fr r /\
    Rabs (r - DX (B2R x)) <= (debye_units (B2R x) * pow2 (-53) + 67 / 10 ^ 16) * DX (B2R x) + pow2 (-1075).
Proof.
  intros Fx X0. pose proof (DX_pos _ X0) as DP. pose proof (bpow_gt_0 radix2 (-1075)) as EP. pose proof (units_ge (B2R x)) as UG.
  destruct table_spec as (T0 & T1 & T2 & T3 & _).
  assert (TL : 40 - 4 / 10 ^ 16 * B2R x <= B2R x -> debye1_pos f64_arith f64_lit f64_toint x = ret (a_div f64_arith (f64_lit 16449340668482264 (-16)) x) ->
    exists fr r, debye1_pos f64_arith f64_lit f64_toint x = ret fr /\ rep 6 fr r /\ Rabs (r - DX (B2R x)) <= (debye_units (B2R x) * pow2 (-53) + 67 / 10 ^ 16) * DX (B2R x) + pow2 (-1075)).
  { intros L E. destruct (tail_ieee x Fx L) as (r & R1 & R2). exists (a_div f64_arith (f64_lit 16449340668482264 (-16)) x), r. split; [exact E|]. split; [exact R1|]. eapply Rle_trans; [exact R2|].
    apply Rplus_le_compat_r, Rmult_le_compat_r; [lra|]. assert (0 <= debye_units (B2R x) * pow2 (-53)) by (apply Rmult_le_pos; [lra|apply bpow_ge_0]). cbn [pow]. lra. }
  destruct (Rlt_dec (B2R x) 40) as [X1|X1].
  2:{ apply TL; [cbn [pow]; lra|]. apply debye1_pos_big; [exact Fx|lra]. }
  destruct (debye1_pos_uses f64_lit x Fx (conj X0 X1)) as [(a & w & sc & cells & k & c & IN & N & XC & E)|[L E]]; [|now apply TL].
  rewrite E. clear TL. assert (NB : (k < length cells)%nat) by (apply nth_error_Some; congruence).
  cbn [debye_table In] in IN. destruct IN as [IN|[IN|[IN|[IN|[]]]]]; injection IN as <- <- <- <-.
  - pose proof (cells_ok_nth _ _ _ _ _ _ _ _ tab0 N) as OK. rewrite !Z.add_0_l in OK, XC.
    assert (LN : length debye1_cells_0 = 50%nat) by reflexivity. rewrite LN in NB. assert (NZ : (Z.of_nat k < 50)%Z) by lia.
    replace (2 * (Z.of_nat k + 1))%Z with (2 * Z.of_nat k + 2)%Z in XC by ring.
    assert (NK : IZR (2 * Z.of_nat k + 2) <= 100) by (apply IZR_le; lia).
    assert (X10 : B2R x <= 11) by (cbn [pow] in *; lra).
    assert (Rx : rep 6 x (B2R x)) by (apply rep_intro; [exact Fx|]; rewrite Rabs_pos_eq by lra; change (pow2 6) with 64; lra).
    destruct (cell_ieee false (K0 (Z.of_nat k)) (2 * Z.of_nat k) 2 c x (B2R x) OK ltac:(lia) ltac:(lia) ltac:(lia)) as (r & R1 & R2 & R3); try assumption.
    + unfold K0. destruct (Z.of_nat k <=? 10)%Z; lia.
    + discriminate.
    + intros t T. destruct (Req_dec t 0) as [->|TN].
      * assert (k = 0)%nat. { destruct k; [reflexivity|exfalso]. assert (2 <= IZR (2 * Z.of_nat (Datatypes.S k))) by (apply IZR_le; lia). lra. }
        subst k. assert (c = hd [] debye1_cells_0) as ->. { Transparent debye1_cells_0. unfold debye1_cells_0 in N |- *. cbn [nth_error hd] in *. congruence. }
        unfold debye1_cells_0, target, DX. cbn [hd polyR]. destruct (Req_EM_T 0 0); [|contradiction]. unfold litR at 1. cbn [fst snd powerRZ]. rewrite Rmult_0_l. replace (1 * 1 + 0 - 1) with 0 by ring. rewrite Rabs_R0. cbn [pow]. lra.
      * assert (0 <= IZR (2 * Z.of_nat k)) by (apply IZR_le; lia). apply good_target; [lra|]. apply (T0 k c t N). replace (2 * (Z.of_nat k + 1))%Z with (2 * Z.of_nat k + 2)%Z by ring. exact T.
    + exists (poly f64_arith f64_lit x c), r. split; [reflexivity|]. split; [exact R1|]. apply (bnd_units (K0 (Z.of_nat k)) (B2R x)) in R2; [|clear - XC X10|exact R3].
      * unfold target in *. eapply Rle_trans; [exact R2|]. apply Rle_trans with ((debye_units (B2R x) * pow2 (-53) + 67 / 10 ^ 16) * DX (B2R x)); [apply Rmult_le_compat_r; cbn [pow]; lra|lra].
      * unfold debye_units. destruct (Rle_dec (B2R x) 2) as [L|L]; [|destruct (Rlt_dec (B2R x) 20); [|lra]; unfold K0; destruct (_ <=? _)%Z; lra].
        assert (2 * Z.of_nat k < 21)%Z. { apply lt_IZR. cbn [pow] in *. lra. }
        unfold K0. replace (Z.of_nat k <=? 10)%Z with true by (symmetry; apply Z.leb_le; lia). lra.
  - pose proof (cells_ok_nth _ _ _ _ _ _ _ _ tab1 N) as OK. rewrite !Z.add_0_l in OK. assert (LN : length debye1_cells_1 = 50%nat) by reflexivity. rewrite LN in NB.
    replace (100 + 2 * (Z.of_nat k + 1))%Z with (100 + 2 * Z.of_nat k + 2)%Z in XC by ring.
    assert (0 <= IZR (Z.of_nat k)) by (apply IZR_le; lia). assert (XL : 9 <= B2R x). { destruct XC as [XC _]. rewrite plus_IZR, mult_IZR in XC. cbn [pow] in *. lra. }
    destruct (scaled_ieee (K1 (Z.of_nat k)) (100 + 2 * Z.of_nat k) 2 c x OK ltac:(lia) ltac:(lia) ltac:(lia)) as (r & R1 & R2); try assumption.
    + unfold K1. destruct (Z.of_nat k <? 49)%Z; lia.
    + unfold debye_units. destruct (Rle_dec (B2R x) 2) as [L|L]; [lra|]. destruct (Rlt_dec (B2R x) 20) as [L2|L2]; [unfold K1; destruct (_ <? _)%Z; lra|].
      unfold K1. destruct (Z.ltb_spec (Z.of_nat k) 49) as [B|B]; [|lra]. exfalso. assert (IZR (100 + 2 * Z.of_nat k + 2) <= 198) by (apply IZR_le; lia). cbn [pow] in *. lra.
    + intros t T. apply (T1 k c t N). replace (100 + 2 * (Z.of_nat k + 1))%Z with (100 + 2 * Z.of_nat k + 2)%Z by ring. exact T.
    + exists (a_div f64_arith (poly f64_arith f64_lit x c) x), r. auto.
  - pose proof (cells_ok_nth _ _ _ _ _ _ _ _ tab2 N) as OK. rewrite !Z.add_0_l in OK. assert (LN : length debye1_cells_2 = 10%nat) by reflexivity. rewrite LN in NB.
    replace (200 + 10 * (Z.of_nat k + 1))%Z with (200 + 10 * Z.of_nat k + 10)%Z in XC by ring.
    destruct (scaled_ieee (K23 (Z.of_nat k)) (200 + 10 * Z.of_nat k) 10 c x OK ltac:(lia) ltac:(lia) ltac:(lia)) as (r & R1 & R2); try assumption; try (unfold K23; lia); try (unfold K23; lra).
    + intros t T. apply (T2 k c t N). replace (200 + 10 * (Z.of_nat k + 1))%Z with (200 + 10 * Z.of_nat k + 10)%Z by ring. exact T.
    + exists (a_div f64_arith (poly f64_arith f64_lit x c) x), r. auto.
  - pose proof (cells_ok_nth _ _ _ _ _ _ _ _ tab3 N) as OK. rewrite !Z.add_0_l in OK. assert (LN : length debye1_cells_3 = 10%nat) by reflexivity. rewrite LN in NB.
    replace (300 + 10 * (Z.of_nat k + 1))%Z with (300 + 10 * Z.of_nat k + 10)%Z in XC by ring.
    destruct (scaled_ieee (K23 (Z.of_nat k)) (300 + 10 * Z.of_nat k) 10 c x OK ltac:(lia) ltac:(lia) ltac:(lia)) as (r & R1 & R2); try assumption; try (unfold K23; lia); try (unfold K23; lra).
    + intros t T. apply (T3 k c t N). replace (300 + 10 * (Z.of_nat k + 1))%Z with (300 + 10 * Z.of_nat k + 10)%Z by ring. exact T.
    + exists (a_div f64_arith (poly f64_arith f64_lit x c) x), r. auto.
Qed.

(** ** negative arguments: debye1(-x) - x/2 *)
Lemma rep_big (f : f64) r : f2e f64_prec f64_emax f = frnd f64_prec f64_emax r -> Rabs (rn r) < pow2 1024 -> is_finite f = true /\ B2R f = rn r.
Proof.
  intros E H. unfold frnd in E. rewrite Rlt_bool_true in E by exact H. apply f2e_fin_finite in E. exact E.
Qed.
Lemma debye1_ieee (x : f64) v : is_finite x = true -> is_D1 (B2R x) v ->
  exists r, debye1 f64_arith f64_lit f64_toint x = ret r /\ is_finite r = true /\
    Rabs (B2R r - v) <= (debye_units (Rabs (B2R x)) * pow2 (-53) + 8 / 10 ^ 15) * v + pow2 (-1073).
Proof.
  intros Fx Dv. pose proof (bpow_gt_0 radix2 (-1075)) as EP. assert (E4 : pow2 (-1073) = 4 * pow2 (-1075)) by (change 4 with (pow2 2); rewrite <- bpow_plus; reflexivity).
  rewrite debye1_unfold. pose proof (rep_ltb 1024 6 x (a_ofZ f64_arith 0) _ _ (fin_rep x Fx) (rep_ofZ 0 6 ltac:(lia) ltac:(lia))) as LT.
  destruct (ltb (a_cmp f64_arith) x (a_ofZ f64_arith 0)) eqn:L.
  - apply proj1 in LT. specialize (LT eq_refl). clear L. rewrite (Rabs_left (B2R x)) by exact LT.
    set (y := a_opp f64_arith x). assert (Fy : is_finite y = true) by exact (eq_trans (is_finite_Bopp _ _ x) Fx). assert (Ey : B2R y = - B2R x) by exact (B2R_Bopp _ _ x).
    destruct (debye1_pos_ieee y Fy ltac:(lra)) as (fr & r & E & R1 & R2). rewrite E. cbn [bind ret]. rewrite Ey in R2.
    assert (DD : DX (- B2R x) = v + B2R x / 2) by exact (D1_unique _ _ _ (DX_D1 _) (D1_neg _ _ Dv)).
    pose proof (DX_pos (- B2R x) ltac:(lra)) as DP. set (d := DX (- B2R x)) in *. assert (Vd : v = d + - B2R x / 2) by lra. clear DD Dv.
    assert (XB : Rabs (B2R x / 2) <= pow2 1023). { unfold Rdiv. rewrite Rabs_mult, (Rabs_pos_eq (/ 2)) by lra. pose proof (proj2 (proj2 (fin_rep x Fx))) as B. change 1024%Z with (1 + 1023)%Z in B. rewrite bpow_plus in B. change (pow2 1) with 2 in B. lra. }
    assert (H2 : is_finite (a_div f64_arith x (a_ofZ f64_arith 2)) = true /\ B2R (a_div f64_arith x (a_ofZ f64_arith 2)) = rn (B2R x / 2)).
    { pose proof (rep_ofZ 2 6 ltac:(lia) ltac:(lia)) as (F2 & B2 & _). apply rep_big.
      - rewrite <- B2. apply (f2e_div _ _ f64_Hp f64_He); [exact Fx|exact F2|rewrite B2; lra].
      - apply Rle_lt_trans with (pow2 1023); [|apply bpow_lt; lia]. apply abs_round_le_generic; [typeclasses eauto|typeclasses eauto|apply generic_format_bpow; unfold FLT_exp; lia|exact XB]. }
    destruct H2 as [H1 H2]. assert (EH := rn_err_le (B2R x / 2) _ (Rle_refl _)). rewrite (Rabs_left (B2R x / 2)) in EH by lra. 
    assert (HB : Rabs (rn (B2R x / 2)) <= pow2 1023) by (apply abs_round_le_generic; [typeclasses eauto|typeclasses eauto|apply generic_format_bpow; unfold FLT_exp; lia|exact XB]).
    set (h := rn (B2R x / 2)) in *. destruct R1 as (F1 & B1 & R1). change (pow2 6) with 64 in R1.
    assert (SB : Rabs (r - h) <= pow2 1023 + 64). { unfold Rminus. eapply Rle_trans; [apply Rabs_triang|]. rewrite Rabs_Ropp. lra. }
    assert (ES := rn_err_le (r - h) _ (Rle_refl _)).
    assert (U : 0 < pow2 (-53) <= 112 / 10 ^ 18) by (cbn; lra).
    assert (P23 : 1000 <= pow2 1023). { apply Rle_trans with (pow2 10); [change (pow2 10) with 1024; lra|apply bpow_le; lia]. }
    assert (P24 : pow2 1024 = 2 * pow2 1023) by (change 2 with (pow2 1); rewrite <- bpow_plus; reflexivity).
    assert (P75 : pow2 (-1075) <= 1) by (change 1 with (pow2 0); apply bpow_le; lia).
    assert (SR : is_finite (a_sub f64_arith fr (a_div f64_arith x (a_ofZ f64_arith 2))) = true /\ B2R (a_sub f64_arith fr (a_div f64_arith x (a_ofZ f64_arith 2))) = rn (r - h)).
    { apply rep_big; [rewrite <- B1, <- H2; now apply (f2e_minus _ _ f64_Hp f64_He)|]. replace (rn (r - h)) with ((rn (r - h) - (r - h)) + (r - h)) by ring. eapply Rle_lt_trans; [apply Rabs_triang|]. rewrite P24.
      assert (pow2 (-53) * Rabs (r - h) <= / 1000 * Rabs (r - h)) by (apply Rmult_le_compat_r; [apply Rabs_pos|cbn [pow] in *; lra]). lra. }
    eexists. split; [reflexivity|]. destruct SR as [S1 S2]. split; [exact S1|]. rewrite S2.
    pose proof (units_k (- B2R x)) as UK. set (n := debye_units (- B2R x) * pow2 (-53)) in *. set (u := pow2 (-53)) in *. set (eta := pow2 (-1075)) in *. rewrite E4.
    assert (N0 : 0 <= n) by (unfold n; pose proof (units_ge (- B2R x)); apply Rmult_le_pos; lra). clearbody n u eta. set (X := - B2R x / 2) in *.
    assert (EH' : Rabs (h + X) <= u * X + eta). { replace (h + X) with (h - B2R x / 2) by (unfold X; field). replace X with (- (B2R x / 2)) by (unfold X; field). exact EH. }
    assert (X0 : 0 < X) by (unfold X; lra). clearbody h X. clear - R2 EH' ES UK U DP Vd EP X0 N0 P75. subst v.
    assert (n <= / 1000) by (cbn [pow] in *; lra).
    assert (RH : Rabs (r - h - (d + X)) <= (n + 67 / 10 ^ 16) * d + u * X + 2 * eta).
    { replace (r - h - (d + X)) with ((r - d) - (h + X)) by ring. unfold Rminus at 1. eapply Rle_trans; [apply Rabs_triang|]. rewrite Rabs_Ropp. lra. }
    assert (NX : 0 <= n * X) by (apply Rmult_le_pos; lra). assert (Nd : 0 <= n * d <= / 1000 * d) by (split; [apply Rmult_le_pos; lra|apply Rmult_le_compat_r; lra]).
    assert (UX : u * X <= 112 / 10 ^ 18 * X) by (apply Rmult_le_compat_r; lra).
    assert (AB : Rabs (r - h) <= 11 / 10 * (d + X) + 2 * eta). { replace (r - h) with ((r - h - (d + X)) + (d + X)) by ring. eapply Rle_trans; [apply Rabs_triang|]. rewrite (Rabs_pos_eq (d + X)) by lra. cbn [pow] in *. lra. }
    assert (UA : u * Rabs (r - h) <= 112 / 10 ^ 18 * (11 / 10 * (d + X) + 2 * eta)) by (apply Rmult_le_compat; [lra|apply Rabs_pos|lra|exact AB]).
    replace (rn (r - h) - (d + X)) with ((rn (r - h) - (r - h)) + (r - h - (d + X))) by ring. eapply Rle_trans; [apply Rabs_triang|]. cbn [pow] in *. lra.
  - assert (X0 : 0 <= B2R x). { apply Rnot_lt_le. intros C. apply LT in C. congruence. }
    destruct (debye1_pos_ieee x Fx X0) as (fr & r & E & (F1 & B1 & _) & R2). exists fr. split; [exact E|]. split; [exact F1|]. rewrite B1, (Rabs_pos_eq (B2R x)) by exact X0.
    rewrite (D1_unique _ _ _ (DX_D1 _) Dv) in R2. eapply Rle_trans; [exact R2|]. rewrite E4. apply Rplus_le_compat; [|lra].
    pose proof (DX_pos _ X0) as DP. rewrite (D1_unique _ _ _ (DX_D1 _) Dv) in DP. apply Rmult_le_compat_r; [lra|]. cbn [pow]. lra.
Qed.
Lemma debye1_loop_ieee m p step pout ostep (out : mem f64) l :
  view m p step l -> writable out pout ostep (length l) -> List.Forall (fun x => is_finite x = true) l ->
  exists r, writes (unary_loop (debye1 f64_arith f64_lit f64_toint) m p (Z.of_nat (length l)) step pout ostep out) out pout ostep r /\
    List.Forall2 (fun x y => is_finite y = true /\ forall v, is_D1 (B2R x) v -> Rabs (B2R y - v) <= (debye_units (Rabs (B2R x)) * pow2 (-53) + 8 / 10 ^ 15) * v + pow2 (-1073)) l r.
Proof.
  intros V W F. eexists. split; [apply (special_loop _ B754_nan); [exact V|exact W|intros; apply debye1_defined_ieee]|].
  clear V W. induction F as [|x l Fx F IH]; constructor; [|exact IH]. destruct (D1_exists (B2R x)) as (v & D). destruct (debye1_ieee x v Fx D) as (r & -> & Fr & B).
  split; [exact Fr|]. intros w Dw. now rewrite (D1_unique _ _ _ Dw D).
Qed.
