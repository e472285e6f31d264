(** Rounding error of swish, for a library exp accurate to a few units in the last place. *)
From Coq Require Import ZArith Reals List Bool Lia Lra Psatz SpecFloat.
From Flocq Require Import Core BinarySingleNaN Plus_error Relative.
From Verif Require Import CSem CSemP Num NumP NumF M_Elem S_Signal S_Line S_StepF S_LogiF P_Kbn P_SumF P_LineF P_StepF P_RampF P_LogiF P_VarioF.
Open Scope R_scope.

Lemma sigmoid_opp t : sigmoid (- t) = 1 - sigmoid t.
Proof. unfold sigmoid. rewrite Ropp_involutive, exp_Ropp. pose proof (exp_pos t). field. lra. Qed.
Lemma sig_pert_pos t t' e d : 0 <= t -> 0 <= t' -> 0 <= e <= / 500 -> 0 <= d -> Rabs (t' - t) <= e * t + d -> Rabs (sigmoid t' - sigmoid t) <= 101/100 * (e + d).
Proof.
  intros H H' He Hd B. pose proof (exp_pert (- t) (- t') e d ltac:(lra) ltac:(lra) He Hd) as P. rewrite Ropp_involutive in P.
  replace (- t' - - t) with (- (t' - t)) in P by ring. rewrite Rabs_Ropp in P. specialize (P B). eapply Rle_trans; [|exact P].
  unfold sigmoid. pose proof (exp_pos (- t)) as E1. pose proof (exp_pos (- t')) as E2. set (E := exp (- t)) in *. set (E' := exp (- t')) in *.
  replace (1 / (1 + E') - 1 / (1 + E)) with ((E - E') * / ((1 + E') * (1 + E))) by (field; lra). rewrite Rabs_mult, (Rabs_minus_sym E E').
  assert (I : 1 <= (1 + E') * (1 + E)) by (assert (0 < E' * E) by (apply Rmult_lt_0_compat; lra); lra).
  rewrite (Rabs_pos_eq (/ _)) by (left; apply Rinv_0_lt_compat; lra).
  assert (J : / ((1 + E') * (1 + E)) <= 1) by (rewrite <- Rinv_1; apply Rinv_le_contravar; lra).
  rewrite <- (Rmult_1_r (Rabs (E' - E))) at 2. apply Rmult_le_compat_l; [apply Rabs_pos|exact J].
Qed.
Lemma sig_pert t t' e d : (0 <= t /\ 0 <= t') \/ (t <= 0 /\ t' <= 0) -> 0 <= e <= / 500 -> 0 <= d -> Rabs (t' - t) <= e * Rabs t + d ->
  Rabs (sigmoid t' - sigmoid t) <= 101/100 * (e + d).
Proof.
  intros [[H H']|[H H']] He Hd B.
  - rewrite (Rabs_pos_eq t) in B by lra. apply sig_pert_pos; assumption.
  - rewrite (Rabs_left1 t) in B by lra. pose proof (sig_pert_pos (- t) (- t') e d ltac:(lra) ltac:(lra) He Hd) as P. replace (- t' - - t) with (- (t' - t)) in P by ring. rewrite Rabs_Ropp in P.
    specialize (P B). rewrite !sigmoid_opp in P. replace (1 - sigmoid t' - (1 - sigmoid t)) with (- (sigmoid t' - sigmoid t)) in P by ring. rewrite Rabs_Ropp in P. exact P.
Qed.

Section SwishF.
  Context (prec emax : Z).
  Context (Hp : Prec_gt_0 prec) (He : Prec_lt_emax prec emax).
  Context (Hp11 : (11 <= prec)%Z).
  Notation F := (binary_float prec emax).
  Notation FA := (farith prec emax Hp He).
  Notation rnd := (rnd prec emax).
  Notation emin := (3 - emax - prec)%Z.
  Notation u := (u_ro radix2 prec).
  Notation h := (half_eta prec emax).
  Context (TR : transc F) (K : R) (HK : 0 <= K <= 8).
  Notation US := (u_small prec Hp11).
  Notation HS := (h_small prec emax He Hp11).
  Let Hp1 : (1 < prec)%Z. Proof. lia. Qed.

  Lemma rnd_pos x : 0 <= x -> 0 <= rnd x.
  Proof.
    intros H. unfold NumF.rnd. change (SpecFloat.fexp prec emax) with (FLT_exp emin prec). apply (Rle_trans _ (round radix2 (FLT_exp emin prec) ZnearestE 0)); [rewrite round_0 by typeclasses eauto; lra|]. apply round_le; [typeclasses eauto|typeclasses eauto|exact H].
  Qed.

  Theorem swish_bound (x b : F) : let m := a_mul FA b x in
    is_finite m = true -> libm_close K exp (t_exp TR) (a_opp FA m) ->
    is_finite (a_add FA (a_ofZ FA 1) (t_exp TR (a_opp FA m))) = true ->
    is_finite (swish FA TR x b) = true ->
    Rabs (B2R (swish FA TR x b) - B2R x * sigmoid (B2R b * B2R x)) <= (11/10 * K + 6) * u * Rabs (B2R x) + h.
  Proof.
    intros m Fm HL Fs Fv. unfold swish in *. fold m in Fv |- *. pose proof US as U. pose proof HS as HH. pose proof (ku_small prec Hp11 K HK) as KU.
    destruct (logistic_bound prec emax Hp He Hp11 TR K HK m HL Fs) as [_ EL]. destruct (mult_fin prec emax Hp He _ _ Fm) as (_ & _ & Em). pose proof (mul_e prec emax Hp He Hp11 _ _ Fm) as Er. fold m in Em, Er.
    set (t := B2R b * B2R x) in *.
    assert (SG : (0 <= t /\ 0 <= B2R m) \/ (t <= 0 /\ B2R m <= 0)).
    { rewrite Em. destruct (Rle_dec 0 t); [left; split; [assumption|apply rnd_pos; assumption]|right; split; [lra|apply (rnd_neg prec emax Hp); lra]]. }
    pose proof (sig_pert t (B2R m) u h SG ltac:(lra) ltac:(lra) Er) as ES. pose proof (sigmoid_01 (B2R m)) as S1. pose proof (sigmoid_01 t) as S2.
    set (L := logistic FA TR m) in *. set (a := (11/10 * K + 3) * u) in *. assert (HA : 0 <= a <= 6/1000) by (unfold a; lra).
    assert (aS : a * sigmoid (B2R m) <= a * 1) by (apply Rmult_le_compat_l; lra).
    assert (X : Rabs (B2R L - sigmoid t) <= a + 102/100 * u).
    { replace (B2R L - sigmoid t) with ((B2R L - sigmoid (B2R m)) + (sigmoid (B2R m) - sigmoid t)) by ring. eapply Rle_trans; [apply Rabs_triang|]. lra. }
    assert (BL : Rabs (B2R L) <= 101/100).
    { replace (B2R L) with ((B2R L - sigmoid t) + sigmoid t) by ring. eapply Rle_trans; [apply Rabs_triang|]. rewrite (Rabs_pos_eq (sigmoid t)) by lra. lra. }
    pose proof (mul_e prec emax Hp He Hp11 _ _ Fv) as Ev. pose proof (Rabs_pos (B2R x)) as PX. rewrite (Rabs_mult (B2R x) (B2R L)) in Ev.
    replace (B2R (a_mul FA x L) - B2R x * sigmoid t) with ((B2R (a_mul FA x L) - B2R x * B2R L) + B2R x * (B2R L - sigmoid t)) by ring.
    eapply Rle_trans; [apply Rabs_triang|]. rewrite (Rabs_mult (B2R x) (B2R L - sigmoid t)).
    assert (T1 : Rabs (B2R x) * Rabs (B2R L - sigmoid t) <= Rabs (B2R x) * (a + 102/100 * u)) by (apply Rmult_le_compat_l; lra).
    assert (T2 : u * (Rabs (B2R x) * Rabs (B2R L)) <= u * (Rabs (B2R x) * (101/100))) by (apply Rmult_le_compat_l; [lra|]; apply Rmult_le_compat_l; lra).
    replace (Rabs (B2R x) * (a + 102 / 100 * u)) with ((11/10 * K + 3 + 102/100) * (u * Rabs (B2R x))) in T1 by (unfold a; ring).
    assert (0 <= u * Rabs (B2R x)) by (apply Rmult_le_pos; lra). lra.
  Qed.
End SwishF.
