(** Rounding error of rms, vdot and wjaccard in IEEE arithmetic. *)
From Coq Require Import ZArith Reals List Bool Lia Lra Psatz.
From Flocq Require Import Core BinarySingleNaN Plus_error Relative.
From Verif Require Import CSem CSemP FoldP Num NumP NumF M_Stat S_Stat P_Kbn P_Vnorm P_Soft.
Import ListNotations.
Open Scope R_scope.

Lemma Forall2_len {X Y} (P : X -> Y -> Prop) l t : Forall2 P l t -> length l = length t.
Proof. induction 1; cbn [length]; congruence. Qed.

(** ** powers of 1 + u *)
Section Gain.
  Context (u : R) (U : 0 <= u <= / 2).

  Lemma gain_pos a n : 1 <= a -> 1 <= a * (1 + u) ^ n.
  Proof. intros H. pose proof (pow_R1_Rle (1 + u) n ltac:(lra)). nra. Qed.

  Lemma gain_inv : / (1 - u) <= (1 + u) ^ 2.
  Proof.
    apply (Rmult_le_reg_r (1 - u)); [lra|]. rewrite Rinv_l by lra. cbn [pow].
    assert (0 <= u * (1 - u - u * u)) by (apply Rmult_le_pos; [lra|nra]). nra.
  Qed.

  (** a lower factor 2 - a shrinks no faster than the upper factor a grows *)
  Lemma gain_down a : 1 <= a -> 2 - a * (1 + u) <= (2 - a) * (1 - u).
  Proof. intros H. assert (0 <= u * (a - 1)) by (apply Rmult_le_pos; lra). nra. Qed.

  Lemma gain_inv_down : 1 - u <= / (1 + u).
  Proof. apply (Rmult_le_reg_r (1 + u)); [lra|]. rewrite Rinv_l by lra. nra. Qed.

  Lemma gain_pow_down n : 2 - (1 + u) ^ n <= (1 - u) ^ n.
  Proof.
    induction n as [|n IH]; [simpl; lra|]. cbn [pow].
    pose proof (gain_down ((1 + u) ^ n) (pow_R1_Rle (1 + u) n ltac:(lra))) as D.
    assert ((2 - (1 + u) ^ n) * (1 - u) <= (1 - u) ^ n * (1 - u)) by (apply Rmult_le_compat_r; lra). lra.
  Qed.

  Lemma gain_pow_inv n : / (1 - u) ^ n <= (1 + u) ^ (2 * n).
  Proof.
    rewrite <- pow_inv. rewrite pow_mult. apply pow_incr. split; [|exact gain_inv].
    left. apply Rinv_0_lt_compat. lra.
  Qed.

  Lemma gain_pow_inv_down n : (1 - u) ^ n <= / (1 + u) ^ n.
  Proof. rewrite <- pow_inv. apply pow_incr. split; [lra|exact gain_inv_down]. Qed.

  Lemma gain_mono m n : (m <= n)%nat -> (1 + u) ^ m <= (1 + u) ^ n.
  Proof. intros H. apply Rle_pow; [lra|exact H]. Qed.
End Gain.

Section SumF.
  Context (prec emax : Z).
  Context (Hp : Prec_gt_0 prec) (He : Prec_lt_emax prec emax).
  Context (Hp1 : (1 < prec)%Z).
  Notation F := (binary_float prec emax).
  Notation FA := (farith prec emax Hp He).
  Notation rnd := (rnd prec emax).
  Notation frnd := (frnd prec emax).
  Notation emin := (3 - emax - prec)%Z.
  Notation u := (u_ro radix2 prec).
  Notation eta := (/ 2 * bpow radix2 emin).

  Lemma u_bnd : 0 <= u <= / 2.
  Proof.
    unfold u_ro. pose proof (bpow_gt_0 radix2 (- prec + 1)).
    assert (bpow radix2 (- prec + 1) <= bpow radix2 0) as B by (apply bpow_le; lia). simpl (bpow radix2 0) in B. lra.
  Qed.
  Lemma eta_pos : 0 < eta.
  Proof. pose proof (bpow_gt_0 radix2 emin). lra. Qed.

  Lemma rnd_err x : Rabs (rnd x - x) <= u * Rabs x + eta.
  Proof.
    destruct (error_N_FLT radix2 emin prec ltac:(lia) (fun z => negb (Z.even z)) x) as (e & h & B1 & B2 & _ & E).
    unfold NumF.rnd. change (round radix2 (SpecFloat.fexp prec emax) ZnearestE x) with (round radix2 (FLT_exp emin prec) (Znearest (fun z => negb (Z.even z))) x).
    rewrite E. replace (x * (1 + e) + h - x) with (e * x + h) by ring.
    eapply Rle_trans; [apply Rabs_triang|]. rewrite Rabs_mult. unfold u_ro.
    apply Rplus_le_compat; [|exact B2]. apply Rmult_le_compat_r; [apply Rabs_pos|exact B1].
  Qed.

  Lemma rnd_rel x : bpow radix2 (emin + prec - 1) <= Rabs x -> Rabs (rnd x - x) <= u * Rabs x.
  Proof. intros H. exact (relative_error_N_FLT radix2 emin prec ltac:(lia) (fun z => negb (Z.even z)) x H). Qed.

  Lemma frnd_fin r x : frnd r = Fin x -> x = rnd r.
  Proof. unfold NumF.frnd. destruct (Rlt_bool _ _); [congruence|]. destruct (Rlt_bool _ _); discriminate. Qed.

  Lemma mult_fin (x y : F) : is_finite (a_mul FA x y) = true ->
    is_finite x = true /\ is_finite y = true /\ B2R (a_mul FA x y) = rnd (B2R x * B2R y).
  Proof.
    intros H. cbn [a_mul farith] in *.
    assert (FX : is_finite x = true) by (destruct x as [[]|[]| |s m e Hm]; destruct y as [[]|[]| |s' m' e' Hm']; cbn in H; congruence || reflexivity).
    assert (FY : is_finite y = true) by (destruct x as [[]|[]| |s m e Hm]; destruct y as [[]|[]| |s' m' e' Hm']; cbn in H; congruence || reflexivity).
    split; [exact FX|]. split; [exact FY|].
    pose proof (f2e_mult prec emax Hp He x y FX FY) as E. rewrite f2e_finite in E by exact H.
    apply frnd_fin. symmetry. exact E.
  Qed.

  Lemma div_fin (x y : F) : is_finite y = true -> B2R y <> 0 -> is_finite (a_div FA x y) = true ->
    is_finite x = true /\ B2R (a_div FA x y) = rnd (B2R x / B2R y).
  Proof.
    intros FY NY H. cbn [a_div farith] in *.
    assert (FX : is_finite x = true) by (destruct x as [[]|[]| |s m e Hm]; destruct y as [[]|[]| |s' m' e' Hm']; cbn in H; congruence || reflexivity).
    split; [exact FX|].
    pose proof (f2e_div prec emax Hp He x y FX FY NY) as E. rewrite f2e_finite in E by exact H.
    apply frnd_fin. symmetry. exact E.
  Qed.

  Lemma sqrt_fin (x : F) : is_finite (a_sqrt FA x) = true ->
    is_finite x = true /\ 0 <= B2R x /\ B2R (a_sqrt FA x) = rnd (sqrt (B2R x)).
  Proof.
    intros H. cbn [a_sqrt farith] in *. destruct (Bsqrt_correct prec emax Hp He mode_NE x) as (E & EF & _).
    rewrite H in EF. split; [destruct x as [[]|[]| |[] m e Hm]; congruence || reflexivity|].
    split; [|exact E]. destruct x as [[]|[]| |[] m e Hm]; try discriminate; cbn [B2R]; try lra. apply F2R_ge_0. simpl. lia.
  Qed.

  Lemma ofZ0_R : B2R (a_ofZ FA 0) = 0.
  Proof.
    pose proof (f2e_ofZ prec emax Hp He 0) as E. unfold NumF.frnd in E. rewrite rnd_0 in E by assumption. rewrite Rabs_R0, Rlt_bool_true in E by apply bpow_gt_0.
    destruct (f2e_fin_finite prec emax _ _ E) as [_ ->]. reflexivity.
  Qed.

  (** the computed square root is relatively accurate for every float *)
  Lemma sqrt_rel (q : F) : is_finite (a_sqrt FA q) = true ->
    Rabs (B2R (a_sqrt FA q) - sqrt (B2R q)) <= u * sqrt (B2R q).
  Proof.
    intros H. destruct (sqrt_fin q H) as (Fq & Pq & E). rewrite E.
    destruct (Req_dec (B2R q) 0) as [Z|NZ].
    - rewrite Z, sqrt_0, rnd_0 by assumption. rewrite Rminus_0_r, Rabs_R0. lra.
    - rewrite <- (Rabs_pos_eq (sqrt (B2R q))) at 3 by apply sqrt_pos. apply rnd_rel.
      rewrite Rabs_pos_eq by apply sqrt_pos.
      assert (B : bpow radix2 emin <= B2R q).
      { pose proof (abs_B2R_ge_emin prec emax q) as K. rewrite Rabs_pos_eq in K by exact Pq. apply K.
        destruct q as [[]|[]| |s m e Hm]; try discriminate; try reflexivity; exfalso; apply NZ; reflexivity. }
      rewrite <- (sqrt_Rsqr (bpow radix2 (emin + prec - 1))) by apply bpow_ge_0.
      apply sqrt_le_1; [apply Rle_0_sqr|exact Pq|]. eapply Rle_trans; [|exact B].
      unfold Rsqr. rewrite <- bpow_plus. apply bpow_le. unfold Prec_lt_emax in He. lia.
  Qed.

  (** ** a sum of rounded terms *)
  Definition near (e k : R) (p : F) (r : R) : Prop := Rabs (B2R p - r) <= e * Rabs r + k.

  Lemma near_sums e k (l : list F) (t : list R) : 0 <= e -> 0 <= k -> Forall2 (near e k) l t ->
    rsumabs (map B2R l) <= (1 + e) * rsumabs t + INR (length t) * k /\
    Rabs (rsum (map B2R l) - rsum t) <= e * rsumabs t + INR (length t) * k.
  Proof.
    intros He0 Hk H. induction H as [|p r l t Hpr H IH].
    - cbn. unfold rsumabs. cbn. rewrite Rminus_0_r, Rabs_R0. lra.
    - cbn [map rsum]. unfold rsumabs in *. cbn [map rsum]. destruct IH as [I1 I2]. unfold near in Hpr.
      change (length (r :: t)) with (S (length t)). rewrite S_INR. split.
      + assert (Rabs (B2R p) <= Rabs r + (e * Rabs r + k)).
        { replace (B2R p) with (r + (B2R p - r)) by ring. eapply Rle_trans; [apply Rabs_triang|]. lra. }
        lra.
      + replace (B2R p + rsum (map B2R l) - (r + rsum t)) with ((B2R p - r) + (rsum (map B2R l) - rsum t)) by ring.
        eapply Rle_trans; [apply Rabs_triang|]. lra.
  Qed.

  Lemma sum_terms e k (l : list F) (t : list R) : 0 <= e -> 0 <= k -> Forall2 (near e k) l t ->
    is_finite (fold_left (a_add FA) l (a_ofZ FA 0)) = true ->
    Rabs (B2R (fold_left (a_add FA) l (a_ofZ FA 0)) - rsum t)
      <= ((1 + u) ^ length t * (1 + e) - 1) * rsumabs t + (1 + u) ^ length t * (INR (length t) * k).
  Proof.
    intros He0 Hk H Fs. destruct (near_sums e k l t He0 Hk H) as [N1 N2].
    destruct (fold_err prec emax Hp He l (a_ofZ FA 0) Fs) as [E _].
    rewrite ofZ0_R, Rabs_R0, !Rplus_0_l in E. rewrite (Forall2_len _ _ _ H) in E.
    set (s := B2R _) in *. set (g := (1 + u) ^ length t) in *.
    assert (G : 1 <= g) by (apply pow_R1_Rle; pose proof u_bnd; lra).
    replace (s - rsum t) with ((s - rsum (map B2R l)) + (rsum (map B2R l) - rsum t)) by ring.
    eapply Rle_trans; [apply Rabs_triang|].
    assert ((g - 1) * rsumabs (map B2R l) <= (g - 1) * ((1 + e) * rsumabs t + INR (length t) * k)) by (apply Rmult_le_compat_l; lra).
    lra.
  Qed.

  Lemma fold_map_add {X} (f : X -> F) : forall l a,
    fold_left (fun s x => a_add FA s (f x)) l a = fold_left (a_add FA) (map f l) a.
  Proof. induction l as [|x l IH]; intros a; [reflexivity|]. cbn [fold_left map]. apply IH. Qed.

  Lemma near_prod (x y : F) : is_finite (a_mul FA x y) = true -> near u eta (a_mul FA x y) (B2R x * B2R y).
  Proof. intros H. destruct (mult_fin x y H) as (_ & _ & E). unfold near. rewrite E. apply rnd_err. Qed.

  Lemma near_map {X} e k (f : X -> F) (g : X -> R) : forall l, (forall x, In x l -> near e k (f x) (g x)) ->
    Forall2 (near e k) (map f l) (map g l).
  Proof.
    induction l as [|x l IH]; intros H; [constructor|]. constructor; [apply H; left; reflexivity|].
    apply IH. intros y Hy. apply H. right. exact Hy.
  Qed.

  (** ** vdot *)
  Theorem vdot_bound sz mx px sx my py sy (x y : list F) v :
    view mx px sx x -> view my py sy y -> length y = length x -> (Z.of_nat (length x) <= INT_MAX)%Z ->
    vdot_core_calc FA sz (Z.of_nat (length x)) mx px sx my py sy = Some v -> is_finite v = true ->
    Rabs (B2R v - rdot (map B2R x) (map B2R y))
      <= ((1 + u) ^ (length x + 1) - 1) * rdot (map (fun a => Rabs (B2R a)) x) (map (fun a => Rabs (B2R a)) y)
         + (1 + u) ^ length x * (INR (length x) * eta).
  Proof.
    intros V V' EL Hn E Fv. rewrite (vdot_fold FA sz mx px sx my py sy x y V V' EL Hn) in E. injection E as <-.
    unfold fdot in *. rewrite (fold_map_add (fun q => a_mul FA (fst q) (snd q))) in *.
    pose proof (proj2 (fold_add_fin prec emax Hp He _ _ Fv)) as FP.
    assert (N : Forall2 (near u eta) (map (fun q => a_mul FA (fst q) (snd q)) (combine x y)) (map (fun q => B2R (fst q) * B2R (snd q)) (combine x y))).
    { apply near_map. intros q Hq. apply near_prod. apply FP. apply (in_map (fun q => a_mul FA (fst q) (snd q))). exact Hq. }
    pose proof u_bnd as UB. pose proof eta_pos as EP.
    pose proof (sum_terms u eta _ _ ltac:(lra) ltac:(lra) N Fv) as S.
    rewrite map_length, combine_length, EL, Nat.min_id in S.
    assert (D1 : rsum (map (fun q => B2R (fst q) * B2R (snd q)) (combine x y)) = rdot (map B2R x) (map B2R y)).
    { clear. revert y. induction x as [|a x IH]; intros [|b y]; try reflexivity. cbn [combine map]. unfold rdot in *. cbn [map combine rsum fst snd]. rewrite IH. reflexivity. }
    assert (D2 : rsumabs (map (fun q => B2R (fst q) * B2R (snd q)) (combine x y)) = rdot (map (fun a => Rabs (B2R a)) x) (map (fun a => Rabs (B2R a)) y)).
    { clear. unfold rsumabs. revert y. induction x as [|a x IH]; intros [|b y]; try reflexivity. cbn [combine map]. unfold rdot in *. cbn [map combine rsum fst snd]. rewrite IH, Rabs_mult. reflexivity. }
    rewrite D1, D2 in S. rewrite pow_add, pow_1. exact S.
  Qed.

  (** ** root of a rounded mean *)
  Lemma ofZ_rel n : (1 <= n <= 2 ^ (emax - 1))%Z ->
    is_finite (a_ofZ FA n) = true /\ Rabs (B2R (a_ofZ FA n) - IZR n) <= u * IZR n.
  Proof.
    intros Hn. pose proof (f2e_ofZ prec emax Hp He n) as E. unfold Prec_lt_emax in He. unfold Prec_gt_0 in Hp.
    assert (P : 1 <= IZR n) by (apply IZR_le; lia).
    assert (B : Rabs (IZR n) <= bpow radix2 (emax - 1)).
    { rewrite Rabs_pos_eq by lra. rewrite <- (IZR_Zpower radix2) by lia. apply IZR_le. simpl. lia. }
    destruct (frnd_small prec emax Hp (IZR n) (emax - 1) ltac:(lia) B) as [ES _]. rewrite ES in E.
    destruct (f2e_fin_finite prec emax _ _ E) as [Fn En]. split; [exact Fn|]. rewrite En.
    rewrite <- (Rabs_pos_eq (IZR n)) at 3 by lra. apply rnd_rel. rewrite Rabs_pos_eq by lra. eapply Rle_trans; [|exact P].
    change 1 with (bpow radix2 0). apply bpow_le. lia.
  Qed.

  Lemma root_mean (s : F) (S : R) (n : Z) (m : nat) : (1 <= n <= 2 ^ (emax - 1))%Z ->
    bpow radix2 (emin + prec - 1) <= S / IZR n ->
    Rabs (B2R s - S) <= ((1 + u) ^ m - 1) * S ->
    let v := a_sqrt FA (a_div FA s (a_ofZ FA n)) in is_finite v = true ->
    Rabs (B2R v * B2R v - S / IZR n) <= ((1 + u) ^ (m + 6) - 1) * (S / IZR n) /\
    Rabs (B2R v - sqrt (S / IZR n)) <= ((1 + u) ^ (m + 6) - 1) * sqrt (S / IZR n).
  Proof.
    intros Hn Hm HS v Fv. pose proof u_bnd as UB.
    destruct (ofZ_rel n Hn) as [FN EN]. assert (P : 1 <= IZR n) by (apply IZR_le; lia).
    unfold v in *. destruct (sqrt_fin _ Fv) as (Fq & Pq & _). pose proof (sqrt_rel _ Fv) as RV.
    assert (NN : (1 - u) * IZR n <= B2R (a_ofZ FA n) <= (1 + u) * IZR n).
    { apply Rabs_le_inv in EN. lra. }
    set (N := B2R (a_ofZ FA n)) in *.
    assert (PN : 0 < N) by nra.
    destruct (div_fin s (a_ofZ FA n) FN ltac:(fold N; lra) Fq) as [Fs EQ]. fold N in EQ.
    pose proof (rnd_err (B2R s / N)) as RQ. rewrite <- EQ in RQ.
    set (q := B2R (a_div FA s (a_ofZ FA n))) in *. set (w := B2R (a_sqrt FA _)) in *.
    set (M := S / IZR n) in *.
    assert (PM : 0 < M) by (eapply Rlt_le_trans; [apply bpow_gt_0|exact Hm]).
    assert (EM : S = M * IZR n) by (unfold M; field; lra).
    (* the underflow of the quotient is below u M *)
    assert (ET : eta <= u * M).
    { unfold u_ro. replace (/ 2 * bpow radix2 emin) with (/ 2 * bpow radix2 (- prec + 1) * bpow radix2 (emin + prec - 1)).
      - apply Rmult_le_compat_l; [pose proof (bpow_ge_0 radix2 (- prec + 1)); lra|exact Hm].
      - rewrite Rmult_assoc, <- bpow_plus. do 2 f_equal. lia. }
    set (a := (1 + u) ^ m) in *. assert (A1 : 1 <= a) by (apply pow_R1_Rle; lra).
    assert (HSS : (2 - a) * S <= B2R s <= a * S) by (apply Rabs_le_inv in HS; lra).
    assert (U6 : (1 + u) ^ (m + 6) = a * (1 + u) ^ 6) by (apply pow_add). rewrite U6.
    (* upper bound *)
    assert (UP : w * w <= a * (1 + u) ^ 6 * M).
    { assert (Q1 : B2R s / N <= a * (1 + u) ^ 2 * M).
      { apply (Rmult_le_reg_r N); [exact PN|]. unfold Rdiv. rewrite Rmult_assoc, Rinv_l by lra. rewrite Rmult_1_r.
        eapply Rle_trans; [apply HSS|]. rewrite EM.
        pose proof (gain_inv u UB) as GI.
        assert (1 <= (1 + u) ^ 2 * (1 - u)).
        { apply (Rmult_le_compat_r (1 - u)) in GI; [|lra]. rewrite Rinv_l in GI by lra. exact GI. }
        assert ((1 + u) ^ 2 * ((1 - u) * IZR n) <= (1 + u) ^ 2 * N) by (apply Rmult_le_compat_l; [apply pow_le; lra|lra]).
        assert (IZR n <= (1 + u) ^ 2 * N) by nra.
        replace (a * (1 + u) ^ 2 * M * N) with (a * M * ((1 + u) ^ 2 * N)) by ring.
        replace (a * (M * IZR n)) with (a * M * IZR n) by ring.
        apply Rmult_le_compat_l; [|assumption]. apply Rmult_le_pos; lra. }
      assert (Q2 : q <= a * (1 + u) ^ 4 * M).
      { destruct (Rle_or_lt 0 (B2R s / N)) as [K|K].
        - rewrite (Rabs_pos_eq (B2R s / N)) in RQ by exact K. apply Rabs_le_inv in RQ.
          assert (q <= (1 + u) * (B2R s / N) + u * M) by lra.
          assert ((1 + u) * (B2R s / N) <= (1 + u) * (a * (1 + u) ^ 2 * M)) by (apply Rmult_le_compat_l; lra).
          assert (u * M <= u * (a * (1 + u) ^ 3 * M)).
          { apply Rmult_le_compat_l; [lra|]. pose proof (gain_pos u UB a 3 A1).
            replace M with (1 * M) at 1 by ring. apply Rmult_le_compat_r; lra. }
          replace (a * (1 + u) ^ 4 * M) with ((1 + u) * (a * (1 + u) ^ 2 * M) + u * (a * (1 + u) ^ 3 * M)) by (cbn [pow]; ring). lra.
        - assert (q <= 0).
          { rewrite EQ. rewrite <- (rnd_0 prec emax). apply rnd_le; [assumption|lra]. }
          pose proof (gain_pos u UB a 4 A1). nra. }
      assert (W : Rabs w <= (1 + u) * sqrt q).
      { replace w with (sqrt q + (w - sqrt q)) by ring. eapply Rle_trans; [apply Rabs_triang|].
        rewrite (Rabs_pos_eq (sqrt q)) by apply sqrt_pos. lra. }
      assert (W2 : w * w <= (1 + u) ^ 2 * q).
      { rewrite <- (Rabs_pos_eq (w * w)) by apply Rle_0_sqr. rewrite Rabs_mult.
        replace ((1 + u) ^ 2 * q) with (((1 + u) * sqrt q) * ((1 + u) * sqrt q)).
        - apply Rmult_le_compat; try apply Rabs_pos; assumption.
        - rewrite <- (sqrt_sqrt q Pq) at 3. ring. }
      eapply Rle_trans; [exact W2|]. replace (a * (1 + u) ^ 6 * M) with ((1 + u) ^ 2 * (a * (1 + u) ^ 4 * M)) by (cbn [pow]; ring).
      apply Rmult_le_compat_l; [apply pow_le; lra|exact Q2]. }
    (* lower bound *)
    assert (LO : (2 - a * (1 + u) ^ 6) * M <= w * w).
    { destruct (Rle_or_lt (2 - a * (1 + u) ^ 6) 0) as [K|K].
      { pose proof (Rle_0_sqr w). unfold Rsqr in *. nra. }
      assert (Mono : forall i, (i <= 6)%nat -> 0 < 2 - a * (1 + u) ^ i).
      { intros i Hi. pose proof (gain_mono u UB i 6 Hi). nra. }
      assert (Step : forall i, 2 - a * (1 + u) ^ (Datatypes.S i) <= (2 - a * (1 + u) ^ i) * (1 - u)).
      { intros i. pose proof (gain_down u UB (a * (1 + u) ^ i) (gain_pos u UB a i A1)) as D. cbn [pow]. lra. }
      assert (Q1 : (2 - a * (1 + u) ^ 1) * M <= B2R s / N).
      { apply (Rmult_le_reg_r N); [exact PN|]. unfold Rdiv. rewrite (Rmult_assoc (B2R s)), Rinv_l by lra. rewrite Rmult_1_r.
        eapply Rle_trans; [|apply HSS]. rewrite EM.
        pose proof (Mono 0%nat ltac:(lia)) as M0. pose proof (Step 0%nat) as S0. cbn [pow] in M0, S0. rewrite Rmult_1_r in M0, S0. rewrite pow_1.
        assert ((2 - a * (1 + u)) * N <= (2 - a) * (1 - u) * ((1 + u) * IZR n)).
        { pose proof (Mono 1%nat ltac:(lia)) as M1. cbn [pow] in M1. rewrite Rmult_1_r in M1.
          apply Rmult_le_compat; [lra|lra|lra|lra]. }
        assert ((2 - a) * ((1 - u) * (1 + u) * IZR n) <= (2 - a) * IZR n).
        { apply Rmult_le_compat_l; [lra|]. pose proof (Rle_0_sqr u) as SQ. unfold Rsqr in SQ.
          assert (0 <= u * u * IZR n) by (apply Rmult_le_pos; lra). lra. }
        replace ((2 - a * (1 + u)) * M * N) with (M * ((2 - a * (1 + u)) * N)) by ring.
        replace ((2 - a) * (M * IZR n)) with (M * ((2 - a) * IZR n)) by ring.
        apply Rmult_le_compat_l; lra. }
      pose proof (Mono 1%nat ltac:(lia)) as M1. pose proof (Mono 2%nat ltac:(lia)) as M2. pose proof (Mono 3%nat ltac:(lia)) as M3. pose proof (Mono 4%nat ltac:(lia)) as M4.
      assert (Q2 : (2 - a * (1 + u) ^ 3) * M <= q).
      { assert (K1 : 0 <= B2R s / N) by (pose proof (Rmult_lt_0_compat _ _ M1 PM); lra).
        rewrite (Rabs_pos_eq (B2R s / N)) in RQ by exact K1. apply Rabs_le_inv in RQ.
        assert ((1 - u) * (B2R s / N) - u * M <= q) by lra.
        assert ((1 - u) * ((2 - a * (1 + u) ^ 1) * M) <= (1 - u) * (B2R s / N)) by (apply Rmult_le_compat_l; lra).
        pose proof (Step 1%nat) as S1.
        assert ((2 - a * (1 + u) ^ 2) * M <= (2 - a * (1 + u) ^ 1) * (1 - u) * M) by (apply Rmult_le_compat_r; lra).
        assert (u * M <= u * (a * (1 + u) ^ 2) * M).
        { apply Rmult_le_compat_r; [lra|]. pose proof (gain_pos u UB a 2 A1).
          replace u with (u * 1) at 1 by ring. apply Rmult_le_compat_l; lra. }
        replace ((2 - a * (1 + u) ^ 3) * M) with ((2 - a * (1 + u) ^ 2) * M - u * (a * (1 + u) ^ 2) * M) by (cbn [pow]; ring). lra. }
      assert (W : (1 - u) * sqrt q <= w) by (apply Rabs_le_inv in RV; lra).
      assert (W2 : (1 - u) * ((1 - u) * q) <= w * w).
      { replace ((1 - u) * ((1 - u) * q)) with (((1 - u) * sqrt q) * ((1 - u) * sqrt q)).
        - pose proof (sqrt_pos q). apply Rmult_le_compat; try assumption; apply Rmult_le_pos; lra.
        - rewrite <- (sqrt_sqrt q Pq) at 3. ring. }
      pose proof (Step 3%nat) as S3. pose proof (Step 4%nat) as S4.
      assert ((1 - u) * ((1 - u) * ((2 - a * (1 + u) ^ 3) * M)) <= (1 - u) * ((1 - u) * q)) by (do 2 (apply Rmult_le_compat_l; [lra|]); exact Q2).
      assert ((2 - a * (1 + u) ^ 5) * M <= (1 - u) * ((1 - u) * ((2 - a * (1 + u) ^ 3) * M))).
      { replace ((1 - u) * ((1 - u) * ((2 - a * (1 + u) ^ 3) * M))) with ((2 - a * (1 + u) ^ 3) * (1 - u) * (1 - u) * M) by ring.
        apply Rmult_le_compat_r; [lra|]. eapply Rle_trans; [exact S4|]. apply Rmult_le_compat_r; lra. }
      assert ((2 - a * (1 + u) ^ 6) * M <= (2 - a * (1 + u) ^ 5) * M).
      { apply Rmult_le_compat_r; [lra|]. pose proof (gain_mono u UB 5 6 ltac:(lia)). nra. }
      lra. }
    set (b := a * (1 + u) ^ 6) in *. assert (B1 : 1 <= b) by (apply (gain_pos u UB a 6 A1)).
    split; [apply Rabs_le; lra|].
    assert (PW : 0 <= w).
    { apply Rabs_le_inv in RV. pose proof (sqrt_pos q). nra. }
    pose proof (sqrt_lt_R0 M PM) as PR. pose proof (sqrt_sqrt M (Rlt_le _ _ PM)) as RR. set (r := sqrt M) in *.
    rewrite <- RR in UP, LO.
    apply Rabs_le. split.
    - destruct (Rle_or_lt (2 - b) 0) as [K|K]; [nra|]. destruct (Rle_or_lt ((2 - b) * r) w) as [K2|K2]; [lra|].
      exfalso. assert (w * w < ((2 - b) * r) * ((2 - b) * r)) by (apply Rmult_le_0_lt_compat; assumption).
      assert (0 <= (2 - b) * (b - 1) * (r * r)) by (apply Rmult_le_pos; [apply Rmult_le_pos; lra|nra]). nra.
    - destruct (Rle_or_lt w (b * r)) as [K2|K2]; [lra|].
      exfalso. assert ((b * r) * (b * r) < w * w) by (apply Rmult_le_0_lt_compat; try assumption; nra).
      assert (0 <= b * (b - 1) * (r * r)) by (apply Rmult_le_pos; [apply Rmult_le_pos; lra|nra]). nra.
  Qed.

  Lemma rsum_sq_abs {X} (f : X -> R) l : (forall x, 0 <= f x) -> rsumabs (map f l) = rsum (map f l).
  Proof.
    intros H. unfold rsumabs. induction l as [|a l IH]; cbn [map rsum]; [reflexivity|].
    rewrite Rabs_pos_eq, IH by apply H. reflexivity.
  Qed.

  (** underflow of n terms against a sum whose mean is normal *)
  Lemma eta_sum S n : (1 <= n)%Z -> bpow radix2 (emin + prec - 1) <= S / IZR n -> IZR n * eta <= u * S.
  Proof.
    intros Hn H. assert (P : 1 <= IZR n) by (apply IZR_le; lia).
    assert (ET : eta <= u * (S / IZR n)).
    { unfold u_ro. replace (/ 2 * bpow radix2 emin) with (/ 2 * bpow radix2 (- prec + 1) * bpow radix2 (emin + prec - 1)).
      - apply Rmult_le_compat_l; [pose proof (bpow_ge_0 radix2 (- prec + 1)); lra|exact H].
      - rewrite Rmult_assoc, <- bpow_plus. do 2 f_equal. lia. }
    replace (u * S) with (IZR n * (u * (S / IZR n))) by (field; lra). apply Rmult_le_compat_l; lra.
  Qed.

  Theorem rms_bound sz mx px sx (x : list F) v :
    view mx px sx x -> x <> [] -> (Z.of_nat (length x) <= 2 ^ (emax - 1))%Z ->
    rms_core_calc FA sz (Z.of_nat (length x)) mx px sx = Some v -> is_finite v = true ->
    let ms := rsumsq (map B2R x) / INR (length x) in
    bpow radix2 (emin + prec - 1) <= ms ->
    Rabs (B2R v - sqrt ms) <= ((1 + u) ^ (length x + 8) - 1) * sqrt ms.
  Proof.
    intros V Hx Hn E Fv ms Hms. rewrite (rms_fold FA sz mx px sx x V) in E. injection E as <-.
    destruct (sqrt_fin _ Fv) as (Fq & _ & _).
    assert (L1 : (1 <= Z.of_nat (length x))%Z) by (destruct x; [congruence|cbn [length]; lia]).
    destruct (ofZ_rel (Z.of_nat (length x)) (conj L1 Hn)) as [FN EN].
    pose proof u_bnd as UB. pose proof eta_pos as EP.
    assert (P : 1 <= IZR (Z.of_nat (length x))) by (apply IZR_le; exact L1).
    assert (NZ : B2R (a_ofZ FA (Z.of_nat (length x))) <> 0) by (apply Rabs_le_inv in EN; nra).
    destruct (div_fin _ _ FN NZ Fq) as [Fs _].
    unfold fsumsq in Fs, Fv |- *. rewrite (fold_map_add (fun q => a_mul FA q q)) in Fs, Fv |- *.
    pose proof (proj2 (fold_add_fin prec emax Hp He _ _ Fs)) as FP.
    assert (N : Forall2 (near u eta) (map (fun q => a_mul FA q q) x) (map (fun q => B2R q * B2R q) x)).
    { apply near_map. intros q Hq. apply near_prod. apply FP. apply (in_map (fun q => a_mul FA q q)). exact Hq. }
    pose proof (sum_terms u eta _ _ ltac:(lra) ltac:(lra) N Fs) as SB.
    rewrite map_length in SB. rewrite (rsum_sq_abs (fun q : F => B2R q * B2R q)) in SB by (intros; apply Rle_0_sqr).
    assert (D : rsum (map (fun q : F => B2R q * B2R q) x) = rsumsq (map B2R x)).
    { unfold rsumsq. rewrite map_map. reflexivity. }
    rewrite D in SB. unfold ms in *. rewrite INR_IZR_INZ in *.
    pose proof (eta_sum _ _ L1 Hms) as ES. set (SS := rsumsq (map B2R x)) in *.
    assert (PS : 0 <= SS).
    { rewrite <- D. unfold SS. clear. induction x as [|a x IH]; cbn [map rsum]; [lra|]. pose proof (Rle_0_sqr (B2R a)). unfold Rsqr in *. lra. }
    replace (length x + 8)%nat with (length x + 2 + 6)%nat by lia.
    apply (root_mean _ SS (Z.of_nat (length x)) (length x + 2) (conj L1 Hn) Hms); [|exact Fv].
    eapply Rle_trans; [exact SB|]. rewrite pow_add. set (g := (1 + u) ^ length x) in *.
    assert (G : 1 <= g) by (apply pow_R1_Rle; lra).
    assert (g * (IZR (Z.of_nat (length x)) * eta) <= g * (u * SS)) by (apply Rmult_le_compat_l; lra).
    assert (0 <= g * (u * u) * SS) by (apply Rmult_le_pos; [apply Rmult_le_pos; [lra|apply Rle_0_sqr]|exact PS]).
    replace ((g * (1 + u) ^ 2 - 1) * SS) with ((g * (1 + u) - 1) * SS + g * (u * SS) + g * (u * u) * SS) by ring. lra.
  Qed.

  Lemma near_norm (x y : F) : is_finite (a_add FA (a_mul FA x x) (a_mul FA y y)) = true ->
    near ((1 + u) ^ 2 - 1) (2 * (1 + u) * eta) (a_add FA (a_mul FA x x) (a_mul FA y y)) (B2R x * B2R x + B2R y * B2R y).
  Proof.
    intros H. destruct (plus_fin prec emax Hp He _ _ H) as (F1 & F2 & _).
    pose proof (near_prod x x F1) as N1. pose proof (near_prod y y F2) as N2. unfold near in *.
    destruct (add_rel prec emax Hp He _ _ H) as [RA _].
    pose proof u_bnd as UB. pose proof eta_pos as EP.
    pose proof (Rle_0_sqr (B2R x)) as Q1. pose proof (Rle_0_sqr (B2R y)) as Q2. unfold Rsqr in Q1, Q2.
    rewrite (Rabs_pos_eq (B2R x * B2R x)) in N1 by exact Q1. rewrite (Rabs_pos_eq (B2R y * B2R y)) in N2 by exact Q2.
    rewrite (Rabs_pos_eq (_ + _)) by lra.
    set (p := B2R (a_add _ _ _)) in *. set (a := B2R (a_mul FA x x)) in *. set (b := B2R (a_mul FA y y)) in *.
    set (s := B2R x * B2R x) in *. set (t := B2R y * B2R y) in *. set (h := / 2 * bpow radix2 emin) in *.
    assert (AB : Rabs (a + b) <= (1 + u) * (s + t) + 2 * h).
    { apply Rabs_le_inv in N1. apply Rabs_le_inv in N2. apply Rabs_le. nra. }
    replace (p - (s + t)) with ((p - (a + b)) + ((a - s) + (b - t))) by ring.
    eapply Rle_trans; [apply Rabs_triang|].
    pose proof (Rabs_triang (a - s) (b - t)) as TR.
    assert (u * Rabs (a + b) <= u * ((1 + u) * (s + t) + 2 * h)) by (apply Rmult_le_compat_l; lra).
    replace (((1 + u) ^ 2 - 1) * (s + t) + 2 * (1 + u) * h) with (u * ((1 + u) * (s + t) + 2 * h) + (u * (s + t) + 2 * h)) by ring. lra.
  Qed.

  Theorem crms_bound sz mx px sx (z : list (F * F)) v :
    cview mx px sx sz z -> z <> [] -> (Z.of_nat (length z) <= 2 ^ (emax - 1))%Z ->
    crms_core_calc FA sz (Z.of_nat (length z)) mx px sx = Some v -> is_finite v = true ->
    let ms := (rsumsq (map (fun q => B2R (fst q)) z) + rsumsq (map (fun q => B2R (snd q)) z)) / INR (length z) in
    bpow radix2 (emin + prec - 1) <= ms ->
    Rabs (B2R v - sqrt ms) <= ((1 + u) ^ (length z + 10) - 1) * sqrt ms.
  Proof.
    intros V Hx Hn E Fv ms Hms. rewrite (crms_fold FA sz mx px sx z V) in E. injection E as <-.
    destruct (sqrt_fin _ Fv) as (Fq & _ & _).
    assert (L1 : (1 <= Z.of_nat (length z))%Z) by (destruct z; [congruence|cbn [length]; lia]).
    destruct (ofZ_rel (Z.of_nat (length z)) (conj L1 Hn)) as [FN EN].
    pose proof u_bnd as UB. pose proof eta_pos as EP.
    assert (P : 1 <= IZR (Z.of_nat (length z))) by (apply IZR_le; exact L1).
    assert (NZ : B2R (a_ofZ FA (Z.of_nat (length z))) <> 0) by (apply Rabs_le_inv in EN; nra).
    destruct (div_fin _ _ FN NZ Fq) as [Fs _].
    pose (f := fun q : F * F => a_add FA (a_mul FA (fst q) (fst q)) (a_mul FA (snd q) (snd q))).
    pose (g0 := fun q : F * F => B2R (fst q) * B2R (fst q) + B2R (snd q) * B2R (snd q)).
    unfold cfsumsq in Fs, Fv |- *. rewrite (fold_map_add f) in Fs, Fv |- *.
    pose proof (proj2 (fold_add_fin prec emax Hp He _ _ Fs)) as FP.
    assert (N : Forall2 (near ((1 + u) ^ 2 - 1) (2 * (1 + u) * eta)) (map f z) (map g0 z)).
    { apply near_map. intros q Hq. apply near_norm. apply FP. apply (in_map f). exact Hq. }
    assert (E1 : 0 <= (1 + u) ^ 2 - 1) by (cbn [pow]; nra).
    assert (E2 : 0 <= 2 * (1 + u) * eta) by (apply Rmult_le_pos; lra).
    pose proof (sum_terms _ _ _ _ E1 E2 N Fs) as SB.
    assert (G0 : forall q, 0 <= g0 q).
    { intros q. unfold g0. pose proof (Rle_0_sqr (B2R (fst q))). pose proof (Rle_0_sqr (B2R (snd q))). unfold Rsqr in *. lra. }
    rewrite map_length in SB. rewrite (rsum_sq_abs g0 z G0) in SB.
    assert (D : rsum (map g0 z) = rsumsq (map (fun q => B2R (fst q)) z) + rsumsq (map (fun q => B2R (snd q)) z)).
    { unfold rsumsq, g0. rewrite !map_map. clear. induction z as [|a z IH]; cbn [map rsum]; [ring|]. rewrite IH. ring. }
    rewrite D in SB. unfold ms in *. rewrite INR_IZR_INZ in *.
    pose proof (eta_sum _ _ L1 Hms) as ES. set (SS := rsumsq _ + rsumsq _) in *.
    assert (PS : 0 <= SS).
    { rewrite <- D. clear - G0. induction z as [|a z IH]; cbn [map rsum]; [lra|]. pose proof (G0 a). lra. }
    replace (length z + 10)%nat with (length z + 4 + 6)%nat by lia.
    apply (root_mean _ SS (Z.of_nat (length z)) (length z + 4) (conj L1 Hn) Hms); [|exact Fv].
    eapply Rle_trans; [exact SB|]. rewrite pow_add. set (g := (1 + u) ^ length z) in *.
    assert (G : 1 <= g) by (apply pow_R1_Rle; lra).
    set (n := IZR (Z.of_nat (length z))) in *. set (h := / 2 * bpow radix2 emin) in *.
    assert (g * (2 * (1 + u)) * (n * h) <= g * (2 * (1 + u)) * (u * SS)) by (apply Rmult_le_compat_l; [apply Rmult_le_pos; lra|lra]).
    assert (0 <= g * ((1 + u) * (u * u * (3 + u))) * SS).
    { apply Rmult_le_pos; [|exact PS]. apply Rmult_le_pos; [lra|]. apply Rmult_le_pos; [lra|]. apply Rmult_le_pos; [apply Rle_0_sqr|lra]. }
    replace ((g * (1 + u) ^ 4 - 1) * SS) with ((g * (1 + ((1 + u) ^ 2 - 1)) - 1) * SS + g * (2 * (1 + u)) * (u * SS) + g * ((1 + u) * (u * u * (3 + u))) * SS) by ring.
    replace (g * (n * (2 * (1 + u) * h))) with (g * (2 * (1 + u)) * (n * h)) by ring. lra.
  Qed.

  (** ** wjaccard *)
  Lemma sum_nonneg_bnd : forall l (a : F), 0 <= B2R a -> (forall t, In t l -> 0 <= B2R t) ->
    is_finite (fold_left (a_add FA) l a) = true ->
    let S := B2R a + rsum (map B2R l) in let s := B2R (fold_left (a_add FA) l a) in
    (1 - u) ^ length l * S <= s <= (1 + u) ^ length l * S /\ 0 <= S.
  Proof.
    pose proof u_bnd as UB.
    induction l as [|x l IH]; intros a Ha Hl Fs; cbn [fold_left map rsum length pow] in *; [lra|].
    destruct (fold_add_fin prec emax Hp He _ _ Fs) as [F1 _].
    destruct (add_rel prec emax Hp He a x F1) as [R1 _].
    assert (Hx : 0 <= B2R x) by (apply Hl; left; reflexivity).
    rewrite (Rabs_pos_eq (B2R a + B2R x)) in R1 by lra. apply Rabs_le_inv in R1.
    set (b := a_add FA a x) in *.
    assert (Hb : 0 <= B2R b) by nra.
    destruct (IH b Hb (fun t Ht => Hl t (or_intror Ht)) Fs) as [[I1 I2] I3].
    set (SL := rsum (map B2R l)) in *. set (s := B2R (fold_left _ _ _)) in *.
    assert (SP : 0 <= SL).
    { unfold SL. clear - Hl. induction l as [|t l IHl]; cbn [map rsum]; [lra|].
      pose proof (Hl t (or_intror (or_introl eq_refl))).
      assert (0 <= rsum (map B2R l)) by (apply IHl; intros t' [Ht'|Ht']; apply Hl; [left; exact Ht'|right; right; exact Ht']). lra. }
    assert (PL : 0 <= (1 - u) ^ length l) by (apply pow_le; lra).
    assert (PG : 0 <= (1 + u) ^ length l) by (apply pow_le; lra).
    split; [|lra]. split.
    - eapply Rle_trans; [|exact I1]. rewrite (Rmult_comm (1 - u)), Rmult_assoc. apply Rmult_le_compat_l; [exact PL|]. nra.
    - eapply Rle_trans; [exact I2|]. rewrite (Rmult_comm (1 + u)), Rmult_assoc. apply Rmult_le_compat_l; [exact PG|]. nra.
  Qed.

  Notation fmin := (tmin (a_cmp FA)).
  Notation fmax := (tmax (a_cmp FA)).

  Lemma fmin_R (x y : F) : is_finite x = true -> is_finite y = true -> B2R (fmin x y) = Rmin (B2R x) (B2R y).
  Proof.
    intros Fx Fy. unfold tmin. cbn [a_cmp farith]. rewrite ltb_f, !f2e_finite by assumption.
    destruct (ltb ecmp _ _) eqn:E; [apply ltb_Fin in E; rewrite Rmin_right by lra|apply ltb_Fin_false in E; rewrite Rmin_left by lra]; reflexivity.
  Qed.
  Lemma fmax_R (x y : F) : is_finite x = true -> is_finite y = true -> B2R (fmax x y) = Rmax (B2R x) (B2R y).
  Proof.
    intros Fx Fy. unfold tmax. cbn [a_cmp farith]. rewrite ltb_f, !f2e_finite by assumption.
    destruct (ltb ecmp _ _) eqn:E; [apply ltb_Fin in E; rewrite Rmax_right by lra|apply ltb_Fin_false in E; rewrite Rmax_left by lra]; reflexivity.
  Qed.

  Lemma wstep_fold : forall l (a b : F),
    fold_left (wstep FA (fun t => t) (a_cmp FA)) l (a, b) =
    (fold_left (a_add FA) (map (fun q => fmin (fst q) (snd q)) l) a, fold_left (a_add FA) (map (fun q => fmax (fst q) (snd q)) l) b).
  Proof. induction l as [|q l IH]; intros a b; [reflexivity|]. cbn [fold_left map]. unfold wstep at 2. cbn [fst snd]. apply IH. Qed.

  (** a finite nonzero quotient has finite operands *)
  Lemma div_strict (x y : F) : is_finite_strict (a_div FA x y) = true -> is_finite x = true /\ is_finite y = true.
  Proof.
    cbn [a_div farith]. intros H.
    split; destruct x as [[]|[]| |s m e Hm]; destruct y as [[]|[]| |s' m' e' Hm']; cbn in H; congruence || reflexivity.
  Qed.

  Theorem wjaccard_bound mx px sx my py sy (x y : list F) v :
    view mx px sx x -> view my py sy y -> length y = length x -> x <> [] ->
    (forall t, In t (x ++ y) -> is_finite t = true /\ 0 <= B2R t) ->
    wjaccard_core FA (fun t => t) (a_cmp FA) (Z.of_nat (length x)) mx px sx my py sy = Some v ->
    is_finite_strict v = true ->
    let r := rmins (map B2R x) (map B2R y) / rmaxs (map B2R x) (map B2R y) in
    Rabs (B2R v - r) <= ((1 + u) ^ (3 * length x + 1) - 1) * r + eta.
  Proof.
    intros Vx Vy EL Hx HF E Fv. destruct x as [|x0 x]; [congruence|]. destruct y as [|y0 y]; [discriminate|].
    rewrite (wj_fold FA (fun t => t) (a_cmp FA) mx px sx my py sy x0 y0 x y Vx Vy) in E by (cbn in EL; lia).
    destruct (existsb _ (combine (x0 :: x) (y0 :: y))); [injection E as E; rewrite <- E in Fv; cbn in Fv; discriminate Fv|].
    apply (f_equal (fun o => match o with Some a => a | None => v end)) in E. cbv beta iota in E.
    rewrite wstep_fold in E. unfold wfinish in E. cbn [fst snd] in E.
    set (nu := fold_left _ _ (fmin x0 y0)) in E. set (de := fold_left _ _ (fmax x0 y0)) in E.
    destruct (eqb (a_cmp FA) de (a_ofZ FA 0)) eqn:ED; [destruct (eqb (a_cmp FA) nu (a_ofZ FA 0)); rewrite <- E in Fv; cbn in Fv; discriminate Fv|].
    subst v. destruct (div_strict nu de Fv) as [Fn Fd].
    assert (FV : is_finite (a_div FA nu de) = true) by (destruct (a_div FA nu de); try discriminate; reflexivity).
    assert (ND : B2R de <> 0).
    { intros K. cbn [a_cmp farith] in ED. rewrite eqb_f, (f2e_finite _ _ _ Fd), f2e_ofZ in ED. rewrite K in ED.
      unfold NumF.frnd in ED. rewrite rnd_0 in ED by assumption. rewrite Rabs_R0, Rlt_bool_true in ED by apply bpow_gt_0.
      rewrite (proj2 (eqb_Fin 0 0) eq_refl) in ED. discriminate. }
    destruct (div_fin nu de Fd ND FV) as [_ EV].
    assert (HQ : forall q, In q (combine (x0 :: x) (y0 :: y)) -> (is_finite (fst q) = true /\ 0 <= B2R (fst q)) /\ (is_finite (snd q) = true /\ 0 <= B2R (snd q))).
    { intros [a b] Hq. split; apply HF; apply in_or_app; [left; exact (in_combine_l _ _ _ _ Hq)|right; exact (in_combine_r _ _ _ _ Hq)]. }
    assert (H0 := HQ (x0, y0) (or_introl eq_refl)). cbn [fst snd] in H0. destruct H0 as [[Fx0 Px0] [Fy0 Py0]].
    assert (Nmin : forall t, In t (map (fun q => fmin (fst q) (snd q)) (combine x y)) -> 0 <= B2R t).
    { intros t Ht. apply in_map_iff in Ht. destruct Ht as (q & <- & Hq). destruct (HQ q (or_intror Hq)) as [[A1 A2] [A3 A4]].
      rewrite fmin_R by assumption. apply Rmin_glb; assumption. }
    assert (Nmax : forall t, In t (map (fun q => fmax (fst q) (snd q)) (combine x y)) -> 0 <= B2R t).
    { intros t Ht. apply in_map_iff in Ht. destruct Ht as (q & <- & Hq). destruct (HQ q (or_intror Hq)) as [[A1 A2] [A3 A4]].
      rewrite fmax_R by assumption. eapply Rle_trans; [exact A2|apply Rmax_l]. }
    assert (N0 : 0 <= B2R (fmin x0 y0)) by (rewrite fmin_R by assumption; apply Rmin_glb; assumption).
    assert (N1 : 0 <= B2R (fmax x0 y0)) by (rewrite fmax_R by assumption; eapply Rle_trans; [exact Px0|apply Rmax_l]).
    destruct (sum_nonneg_bnd _ _ N0 Nmin Fn) as [[L1 U1] P1]. destruct (sum_nonneg_bnd _ _ N1 Nmax Fd) as [[L2 U2] P2].
    fold nu in L1, U1. fold de in L2, U2.
    assert (CL : length (combine x y) = length x) by (rewrite combine_length; cbn in EL; lia).
    rewrite map_length, CL in L1, U1, L2, U2.
    assert (D1 : B2R (fmin x0 y0) + rsum (map B2R (map (fun q => fmin (fst q) (snd q)) (combine x y))) = rmins (map B2R (x0 :: x)) (map B2R (y0 :: y))).
    { unfold rmins. cbn [map combine rsum fst snd]. rewrite fmin_R by assumption. f_equal.
      assert (HQ' : forall q, In q (combine x y) -> is_finite (fst q) = true /\ is_finite (snd q) = true) by (intros q Hq; destruct (HQ q (or_intror Hq)) as [[] []]; split; assumption).
      clear - HQ'. revert y HQ'. induction x as [|a x IH]; intros [|b y] HQ'; try reflexivity. cbn [combine map rsum fst snd].
      destruct (HQ' (a, b) (or_introl eq_refl)). rewrite fmin_R by assumption. rewrite IH; [reflexivity|]. intros q Hq. apply HQ'. right. exact Hq. }
    assert (D2 : B2R (fmax x0 y0) + rsum (map B2R (map (fun q => fmax (fst q) (snd q)) (combine x y))) = rmaxs (map B2R (x0 :: x)) (map B2R (y0 :: y))).
    { unfold rmaxs. cbn [map combine rsum fst snd]. rewrite fmax_R by assumption. f_equal.
      assert (HQ' : forall q, In q (combine x y) -> is_finite (fst q) = true /\ is_finite (snd q) = true) by (intros q Hq; destruct (HQ q (or_intror Hq)) as [[] []]; split; assumption).
      clear - HQ'. revert y HQ'. induction x as [|a x IH]; intros [|b y] HQ'; try reflexivity. cbn [combine map rsum fst snd].
      destruct (HQ' (a, b) (or_introl eq_refl)). rewrite fmax_R by assumption. rewrite IH; [reflexivity|]. intros q Hq. apply HQ'. right. exact Hq. }
    rewrite D1 in L1, U1, P1. rewrite D2 in L2, U2, P2.
    set (A := rmins _ _) in *. set (B := rmaxs _ _) in *. intros r.
    pose proof u_bnd as UB. set (n := length x) in *.
    assert (PL : 0 < (1 - u) ^ n) by (apply pow_lt; lra). assert (PG : 1 <= (1 + u) ^ n) by (apply pow_R1_Rle; lra).
    assert (PB : 0 < B).
    { destruct P2 as [K|K]; [exact K|]. exfalso. apply ND. rewrite <- K in L2, U2. lra. }
    assert (PD : 0 < B2R de) by (pose proof (Rmult_lt_0_compat _ _ PL PB); lra).
    assert (PN : 0 <= B2R nu) by (pose proof (Rmult_le_pos _ _ (Rlt_le _ _ PL) P1); lra).
    assert (PR : 0 <= r) by (apply Rmult_le_pos; [exact P1|left; apply Rinv_0_lt_compat; exact PB]).
    assert (EA : A = r * B) by (unfold r; field; lra).
    (* the quotient before rounding *)
    assert (QU : B2R nu / B2R de <= (1 + u) ^ (3 * n) * r).
    { apply (Rmult_le_reg_r (B2R de)); [exact PD|]. unfold Rdiv. rewrite Rmult_assoc, Rinv_l, Rmult_1_r by lra.
      eapply Rle_trans; [exact U1|]. rewrite EA. pose proof (gain_pow_inv u UB n) as GI.
      assert (1 <= (1 + u) ^ (2 * n) * (1 - u) ^ n).
      { apply (Rmult_le_compat_r ((1 - u) ^ n)) in GI; [|lra]. rewrite Rinv_l in GI by lra. exact GI. }
      assert (B <= (1 + u) ^ (2 * n) * B2R de).
      { eapply Rle_trans; [|apply Rmult_le_compat_l; [apply pow_le; lra|exact L2]]. rewrite <- Rmult_assoc.
        replace B with (1 * B) at 1 by ring. apply Rmult_le_compat_r; lra. }
      replace (3 * n)%nat with (n + 2 * n)%nat by lia. rewrite pow_add.
      replace ((1 + u) ^ n * (1 + u) ^ (2 * n) * r * B2R de) with ((1 + u) ^ n * r * ((1 + u) ^ (2 * n) * B2R de)) by ring.
      rewrite <- Rmult_assoc. apply Rmult_le_compat_l; [apply Rmult_le_pos; lra|assumption]. }
    assert (QL : (2 - (1 + u) ^ (3 * n)) * r <= B2R nu / B2R de).
    { assert (K : (1 - u) ^ (2 * n) * r <= B2R nu / B2R de).
      { apply (Rmult_le_reg_r (B2R de)); [exact PD|]. unfold Rdiv. rewrite (Rmult_assoc (B2R nu)), Rinv_l, Rmult_1_r by lra.
        eapply Rle_trans; [|exact L1]. rewrite EA.
        pose proof (gain_pow_inv_down u UB n) as GD.
        assert ((1 - u) ^ n * B2R de <= B).
        { eapply Rle_trans; [apply Rmult_le_compat_l; [lra|exact U2]|].
          assert ((1 - u) ^ n * (1 + u) ^ n <= 1).
          { apply (Rmult_le_compat_r ((1 + u) ^ n)) in GD; [|lra]. rewrite Rinv_l in GD by lra. exact GD. }
          rewrite <- Rmult_assoc. replace B with (1 * B) at 2 by ring. apply Rmult_le_compat_r; lra. }
        replace (2 * n)%nat with (n + n)%nat by lia. rewrite pow_add.
        replace ((1 - u) ^ n * (1 - u) ^ n * r * B2R de) with ((1 - u) ^ n * (r * ((1 - u) ^ n * B2R de))) by ring.
        apply Rmult_le_compat_l; [lra|]. apply Rmult_le_compat_l; assumption. }
      eapply Rle_trans; [|exact K]. apply Rmult_le_compat_r; [exact PR|].
      eapply Rle_trans; [|apply (gain_pow_down u UB (2 * n))]. pose proof (gain_mono u UB (2 * n) (3 * n) ltac:(lia)). lra. }
    pose proof (rnd_err (B2R nu / B2R de)) as RE. rewrite <- EV in RE.
    assert (QP : 0 <= B2R nu / B2R de) by (apply Rmult_le_pos; [exact PN|left; apply Rinv_0_lt_compat; exact PD]).
    rewrite (Rabs_pos_eq (B2R nu / B2R de)) in RE by exact QP.
    set (q := B2R nu / B2R de) in *. set (w := B2R (a_div FA nu de)) in *. set (b := (1 + u) ^ (3 * n)) in *.
    assert (PB1 : 1 <= b) by (apply pow_R1_Rle; lra).
    assert (Fin1 : Rabs (w - r) <= (b * (1 + u) - 1) * r + eta).
    { apply Rabs_le_inv in RE.
      assert (u * q <= u * (b * r)) by (apply Rmult_le_compat_l; lra).
      assert (0 <= u * (b - 1) * r) by (apply Rmult_le_pos; [apply Rmult_le_pos; lra|exact PR]).
      apply Rabs_le. split; lra. }
    eapply Rle_trans; [exact Fin1|]. apply Rplus_le_compat_r. apply Rmult_le_compat_r; [exact PR|].
    replace (b * (1 + u)) with ((1 + u) ^ (3 * n + 1)) by (unfold b; rewrite pow_add, pow_1; reflexivity).
    pose proof (gain_mono u UB (3 * n + 1) (3 * length (x0 :: x) + 1) ltac:(cbn [length]; fold n; lia)). lra.
  Qed.
End SumF.
