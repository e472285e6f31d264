(** Rounding error of hmeanw. *)
From Coq Require Import ZArith Reals List Bool Lia Lra Psatz SpecFloat.
From Flocq Require Import Core BinarySingleNaN Plus_error Relative.
From Verif Require Import CSem CSemP Num NumP NumF M_Means S_Stat P_Kbn P_SumF P_Means P_MeansX P_MeanVar.
Import ListNotations.
Open Scope R_scope.

Section HmeanF.
  Context (prec emax : Z).
  Context (Hp : Prec_gt_0 prec) (He : Prec_lt_emax prec emax).
  Context (Hp1 : (1 < prec)%Z).
  Notation F := (binary_float prec emax).
  Notation FA := (farith prec emax Hp He).
  Notation rnd := (rnd prec emax).
  Notation emin := (3 - emax - prec)%Z.
  Notation u := (u_ro radix2 prec).
  Notation eta := (/ 2 * bpow radix2 emin).
  Let UB := u_bnd prec Hp1.

  Lemma quot_gain n A B (nu de : F) : 0 <= A -> 0 <= B -> is_finite de = true -> B2R de <> 0 -> is_finite (a_div FA nu de) = true ->
    (1 - u) ^ n * A <= B2R nu <= (1 + u) ^ n * A -> (1 - u) ^ n * B <= B2R de <= (1 + u) ^ n * B ->
    0 < B /\ Rabs (B2R (a_div FA nu de) - A / B) <= ((1 + u) ^ (3 * n + 1) - 1) * (A / B) + eta.
  Proof.
    intros P1 P2 Fd ND FV [L1 U1] [L2 U2]. destruct (div_fin prec emax Hp He nu de Fd ND FV) as [_ EV].
    set (r := A / B). pose proof UB as UB.
    assert (PL : 0 < (1 - u) ^ n) by (apply pow_lt; lra). assert (PG : 1 <= (1 + u) ^ n) by (apply pow_R1_Rle; lra).
    assert (PB : 0 < B).
    { destruct P2 as [K|K]; [exact K|]. exfalso. apply ND. rewrite <- K in L2, U2. lra. }
    split; [exact PB|].
    assert (PD : 0 < B2R de) by (pose proof (Rmult_lt_0_compat _ _ PL PB); lra).
    assert (PN : 0 <= B2R nu) by (pose proof (Rmult_le_pos _ _ (Rlt_le _ _ PL) P1); lra).
    assert (PR : 0 <= r) by (apply Rmult_le_pos; [exact P1|left; apply Rinv_0_lt_compat; exact PB]).
    assert (EA : A = r * B) by (unfold r; field; lra).
    assert (QU : B2R nu / B2R de <= (1 + u) ^ (3 * n) * r).
    { apply (Rmult_le_reg_r (B2R de)); [exact PD|]. unfold Rdiv. rewrite Rmult_assoc, Rinv_l, Rmult_1_r by lra.
      eapply Rle_trans; [exact U1|]. rewrite EA. pose proof (gain_pow_inv u UB n) as GI.
      assert (1 <= (1 + u) ^ (2 * n) * (1 - u) ^ n).
      { apply (Rmult_le_compat_r ((1 - u) ^ n)) in GI; [|lra]. rewrite Rinv_l in GI by lra. exact GI. }
      assert (B <= (1 + u) ^ (2 * n) * B2R de).
      { eapply Rle_trans; [|apply Rmult_le_compat_l; [apply pow_le; lra|exact L2]]. rewrite <- Rmult_assoc.
        replace B with (1 * B) at 1 by ring. apply Rmult_le_compat_r; lra. }
      replace (3 * n)%nat with (n + 2 * n)%nat by lia. rewrite pow_add.
      replace ((1 + u) ^ n * (1 + u) ^ (2 * n) * r * B2R de) with ((1 + u) ^ n * r * ((1 + u) ^ (2 * n) * B2R de)) by ring.
      rewrite <- Rmult_assoc. apply Rmult_le_compat_l; [apply Rmult_le_pos; lra|assumption]. }
    assert (QL : (2 - (1 + u) ^ (3 * n)) * r <= B2R nu / B2R de).
    { assert (K : (1 - u) ^ (2 * n) * r <= B2R nu / B2R de).
      { apply (Rmult_le_reg_r (B2R de)); [exact PD|]. unfold Rdiv. rewrite (Rmult_assoc (B2R nu)), Rinv_l, Rmult_1_r by lra.
        eapply Rle_trans; [|exact L1]. rewrite EA.
        pose proof (gain_pow_inv_down u UB n) as GD.
        assert ((1 - u) ^ n * B2R de <= B).
        { eapply Rle_trans; [apply Rmult_le_compat_l; [lra|exact U2]|].
          assert ((1 - u) ^ n * (1 + u) ^ n <= 1).
          { apply (Rmult_le_compat_r ((1 + u) ^ n)) in GD; [|lra]. rewrite Rinv_l in GD by lra. exact GD. }
          rewrite <- Rmult_assoc. replace B with (1 * B) at 2 by ring. apply Rmult_le_compat_r; lra. }
        replace (2 * n)%nat with (n + n)%nat by lia. rewrite pow_add.
        replace ((1 - u) ^ n * (1 - u) ^ n * r * B2R de) with ((1 - u) ^ n * (r * ((1 - u) ^ n * B2R de))) by ring.
        apply Rmult_le_compat_l; [lra|]. apply Rmult_le_compat_l; assumption. }
      eapply Rle_trans; [|exact K]. apply Rmult_le_compat_r; [exact PR|].
      eapply Rle_trans; [|apply (gain_pow_down u UB (2 * n))]. pose proof (gain_mono u UB (2 * n) (3 * n) ltac:(lia)). lra. }
    pose proof (rnd_err prec emax Hp1 (B2R nu / B2R de)) as RE. rewrite <- EV in RE.
    assert (QP : 0 <= B2R nu / B2R de) by (apply Rmult_le_pos; [exact PN|left; apply Rinv_0_lt_compat; exact PD]).
    rewrite (Rabs_pos_eq (B2R nu / B2R de)) in RE by exact QP.
    set (q := B2R nu / B2R de) in *. set (w := B2R (a_div FA nu de)) in *.
    replace ((1 + u) ^ (3 * n + 1)) with ((1 + u) ^ (3 * n) * (1 + u)) by (rewrite pow_add, pow_1; reflexivity). set (b := (1 + u) ^ (3 * n)) in *.
    assert (PB1 : 1 <= b) by (apply pow_R1_Rle; lra).
    apply Rabs_le_inv in RE.
    assert (u * q <= u * (b * r)) by (apply Rmult_le_compat_l; lra).
    assert (0 <= u * (b - 1) * r) by (apply Rmult_le_pos; [apply Rmult_le_pos; lra|exact PR]).
    apply Rabs_le. split; lra.
  Qed.

  Lemma div_strict_nz (x y : F) : is_finite_strict (a_div FA x y) = true -> B2R y <> 0.
  Proof.
    intros H K. destruct (div_strict prec emax Hp He x y H) as [_ Fy]. cbn [a_div farith] in H. destruct y as [s|s| |s m e Hm]; try discriminate Fy.
    - destruct x as [[]|[]| |s' m' e' Hm']; destruct s; cbn in H; discriminate.
    - cbn [B2R] in K. apply eq_0_F2R in K. cbn in K. destruct s; discriminate.
  Qed.
  Lemma rsum_gain (q : list (F * F)) (f : F * F -> F) (g : F * F -> R) : (forall e, In e q -> (1 - u) * g e <= B2R (f e) <= (1 + u) * g e) ->
    (1 - u) * rsum (map g q) <= rsum (map B2R (map f q)) <= (1 + u) * rsum (map g q).
  Proof.
    induction q as [|e q IH]; intros H; cbn [map rsum]; [lra|]. pose proof (H e (or_introl eq_refl)). specialize (IH (fun e' He' => H e' (or_intror He'))). lra.
  Qed.
  Lemma pair_fold (q : list (F * F)) : forall a b,
    fold_left (fun (st : F * F) (e : F * F) => (a_add FA (fst st) (snd e), a_add FA (snd st) (a_div FA (snd e) (fst e)))) q (a, b) =
    (fold_left (a_add FA) (map snd q) a, fold_left (a_add FA) (map (fun e => a_div FA (snd e) (fst e)) q) b).
  Proof. induction q as [|e q IH]; intros a b; cbn [fold_left map fst snd]; [reflexivity|]. apply IH. Qed.
  Lemma combine_fst_snd {X Y} (q : list (X * Y)) : combine (map fst q) (map snd q) = q.
  Proof. induction q as [|[a b] q IH]; cbn; [reflexivity|f_equal; exact IH]. Qed.

  Theorem hmeanw_bound mx px sx mw pw sw (q : list (F * F)) v : view mx px sx (map fst q) -> view mw pw sw (map snd q) ->
    (forall e, In e q -> is_finite (fst e) = true /\ 0 < B2R (fst e) /\ 0 <= B2R (snd e) /\
       (B2R (snd e) = 0 \/ bpow radix2 (emin + prec - 1) <= B2R (snd e) / B2R (fst e))) ->
    hmeanw_1d FA (Z.of_nat (length q)) mx px sx mw pw sw = Some v -> is_finite_strict v = true ->
    let r := rsum (map (fun e => B2R (snd e)) q) / rsum (map (fun e => B2R (snd e) / B2R (fst e)) q) in
    Rabs (B2R v - r) <= ((1 + u) ^ (3 * length q + 4) - 1) * r + eta.
  Proof.
    intros V W HQ E Fv. unfold hmeanw_1d in E.
    pose proof (for_loop_two mx px sx (map fst q) mw pw sw (map snd q)
     (fun k st => let '(sumw, sumrecip) := st in
         x <- get mx px sx k ;; w <- get mw pw sw k ;;
         ret (if eqb (a_cmp FA) x (a_ofZ FA 0) then @Brk (F * F) F (sumw, a_inf FA)
              else Next (a_add FA sumw w, a_add FA sumrecip (a_div FA w x))))
     (fun k e st => Some (if eqb (a_cmp FA) (fst e) (a_ofZ FA 0) then @Brk (F * F) F (fst st, a_inf FA)
              else Next (a_add FA (fst st) (snd e), a_add FA (snd st) (a_div FA (snd e) (fst e))))) (a_ofZ FA 0, a_ofZ FA 0) V W) as FL.
    rewrite !map_length in FL. rewrite FL in E; clear FL; [|reflexivity|].
    2: { intros k [s1 s2] a b Ha Hb. rewrite Ha, Hb. reflexivity. }
    rewrite combine_fst_snd in E. rewrite (lloop_never _ (fun st e => (a_add FA (fst st) (snd e), a_add FA (snd st) (a_div FA (snd e) (fst e))))) in E.
    2: { intros k s e He'. destruct (HQ e He') as (Fx & Px & _). replace (eqb (a_cmp FA) (fst e) (a_ofZ FA 0)) with false; [reflexivity|]. symmetry.
      cbn [a_cmp farith]. rewrite eqb_f, (f2e_finite _ _ _ Fx), f2e_ofZ. unfold NumF.frnd. rewrite rnd_0 by assumption. rewrite Rabs_R0, Rlt_bool_true by apply bpow_gt_0.
      destruct (eqb ecmp (Fin (B2R (fst e))) (Fin 0)) eqn:K; [|reflexivity]. apply eqb_Fin in K. lra. }
    rewrite pair_fold in E. cbn [bind] in E. unfold ret in E. apply (f_equal (fun o => match o with Some a => a | None => v end)) in E. cbv beta iota in E. intros r.
    set (nu := fold_left (a_add FA) (map snd q) (a_ofZ FA 0)) in *. set (de := fold_left (a_add FA) (map (fun e => a_div FA (snd e) (fst e)) q) (a_ofZ FA 0)) in *. subst v.
    destruct (div_strict prec emax Hp He nu de Fv) as [Fn Fd]. pose proof (div_strict_nz nu de Fv) as ND.
    assert (FV : is_finite (a_div FA nu de) = true) by (revert Fv; clearbody nu de; generalize (a_div FA nu de); intros d Fv; destruct d; try discriminate Fv; reflexivity).
    pose proof UB as UB. set (n := length q) in *.
    assert (Z0 : 0 <= B2R (a_ofZ FA 0)) by (rewrite (ofZ0_R prec emax Hp He); lra).
    assert (NW : forall t, In t (map snd q) -> 0 <= B2R t) by (intros t Ht; apply in_map_iff in Ht; destruct Ht as (e & <- & He'); apply (HQ e He')).
    destruct (sum_nonneg_bnd prec emax Hp He Hp1 _ _ Z0 NW Fn) as [[L1 U1] P1].
    destruct (fold_add_fin prec emax Hp He _ _ Fd) as [_ FT].
    assert (TG : forall e, In e q -> (1 - u) * (B2R (snd e) / B2R (fst e)) <= B2R (a_div FA (snd e) (fst e)) <= (1 + u) * (B2R (snd e) / B2R (fst e)) /\ 0 <= B2R (snd e) / B2R (fst e)).
    { intros e He'. destruct (HQ e He') as (Fx & Px & Pw & Hn). assert (FQ : is_finite (a_div FA (snd e) (fst e)) = true) by (apply FT, in_map_iff; exists e; split; [reflexivity|exact He']).
      destruct (div_fin prec emax Hp He _ _ Fx ltac:(lra) FQ) as [_ EQ]. assert (PQ : 0 <= B2R (snd e) / B2R (fst e)) by (apply Rmult_le_pos; [exact Pw|left; apply Rinv_0_lt_compat; exact Px]).
      split; [|exact PQ]. rewrite EQ. destruct Hn as [Hn|Hn].
      - rewrite Hn. unfold Rdiv. rewrite Rmult_0_l, rnd_0 by assumption. lra.
      - pose proof (rnd_rel prec emax Hp1 (B2R (snd e) / B2R (fst e))) as RR. rewrite (Rabs_pos_eq (_ / _)) in RR by exact PQ. specialize (RR Hn). apply Rabs_le_inv in RR. lra. }
    destruct (sum_nonneg_bnd prec emax Hp He Hp1 (map (fun e => a_div FA (snd e) (fst e)) q) _ Z0) as [[L2 U2] P2].
    { intros t Ht. apply in_map_iff in Ht. destruct Ht as (e & <- & He'). destruct (TG e He') as [[TL _] TP]. assert (0 <= (1 - u) * (B2R (snd e) / B2R (fst e))) by (apply Rmult_le_pos; lra). lra. }
    { exact Fd. }
    fold nu in L1, U1. fold de in L2, U2. rewrite (ofZ0_R prec emax Hp He), Rplus_0_l in L1, U1, P1, L2, U2, P2. rewrite map_length in L1, U1, L2, U2. fold n in L1, U1, L2, U2.
    rewrite map_map in L1, U1, P1. destruct (rsum_gain q (fun e => a_div FA (snd e) (fst e)) (fun e => B2R (snd e) / B2R (fst e)) (fun e He' => proj1 (TG e He'))) as [G1 G2].
    set (S2 := rsum (map B2R (map (fun e => a_div FA (snd e) (fst e)) q))) in *.
    set (A := rsum (map (fun x => B2R (snd x)) q)) in *. set (B := rsum (map (fun e => B2R (snd e) / B2R (fst e)) q)) in *.
    assert (PB : 0 <= B) by (unfold B; apply rsum_nonneg; intros t Ht; apply in_map_iff in Ht; destruct Ht as (e & <- & He'); exact (proj2 (TG e He'))).
    assert (PL : 0 <= (1 - u) ^ n) by (apply pow_le; lra). assert (PG : 0 <= (1 + u) ^ n) by (apply pow_le; lra).
    destruct (quot_gain (S n) A B nu de P1 PB Fd ND FV) as [PB' Q].
    - cbn [pow]. split.
      + eapply Rle_trans; [|exact L1]. assert (0 <= u * ((1 - u) ^ n * A)) by (apply Rmult_le_pos; [lra|]; apply Rmult_le_pos; assumption). lra.
      + eapply Rle_trans; [exact U1|]. assert (0 <= u * ((1 + u) ^ n * A)) by (apply Rmult_le_pos; [lra|]; apply Rmult_le_pos; assumption). lra.
    - cbn [pow]. split.
      + eapply Rle_trans; [|exact L2]. replace ((1 - u) * (1 - u) ^ n * B) with ((1 - u) ^ n * ((1 - u) * B)) by ring. apply Rmult_le_compat_l; assumption.
      + eapply Rle_trans; [exact U2|]. replace ((1 + u) * (1 + u) ^ n * B) with ((1 + u) ^ n * ((1 + u) * B)) by ring. apply Rmult_le_compat_l; assumption.
    - replace (3 * n + 4)%nat with (3 * S n + 1)%nat by lia. exact Q.
  Qed.
End HmeanF.
