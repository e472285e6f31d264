(** * P_RelF: relative error as a count of roundings *)
From Coq Require Import ZArith Reals List Bool Lia Lra.
From Flocq Require Import Core BinarySingleNaN Plus_error Relative.
From Verif Require Import CSem CSemP Num NumP NumF P_Kbn P_SumF.
Import ListNotations.
Open Scope R_scope.

Section Rel.
  Context (u : R) (U : 0 <= u <= / 2).
  Notation w := (1 - u).

  (** x is y after at most k roundings: off by a factor between (1-u)^k and (1-u)^(-k) *)
  Definition rel (k : nat) (x y : R) : Prop := exists f, x = y * f /\ w ^ k <= f <= / w ^ k.

  Lemma w_pos k : 0 < w ^ k.
  Proof. apply pow_lt. lra. Qed.
  Lemma w_le1 k : w ^ k <= 1.
  Proof. eapply Rle_trans; [apply (pow_incr w 1); lra|]. rewrite pow1. lra. Qed.
  Lemma wi_ge1 k : 1 <= / w ^ k.
  Proof. eapply Rle_trans; [|apply (Rinv_le_contravar (w ^ k) 1); [apply w_pos|apply w_le1]]. rewrite Rinv_1. lra. Qed.
  Lemma w_anti k l : (k <= l)%nat -> w ^ l <= w ^ k.
  Proof.
    intros H. replace l with (k + (l - k))%nat by lia. rewrite pow_add.
    rewrite <- (Rmult_1_r (w ^ k)) at 2. apply Rmult_le_compat_l; [left; apply w_pos|apply w_le1].
  Qed.
  Lemma wi_mono k l : (k <= l)%nat -> / w ^ k <= / w ^ l.
  Proof. intros H. apply Rinv_le_contravar; [apply w_pos|apply w_anti; exact H]. Qed.

  Lemma rel_refl x : rel 0 x x.
  Proof. exists 1. simpl. split; [ring|]. rewrite Rinv_1. lra. Qed.
  Lemma rel_mono k l x y : (k <= l)%nat -> rel k x y -> rel l x y.
  Proof.
    intros H (f & E & B). exists f. split; [exact E|]. pose proof (w_anti k l H). pose proof (wi_mono k l H). lra.
  Qed.
  Lemma factor_mul k l f g : w ^ k <= f <= / w ^ k -> w ^ l <= g <= / w ^ l -> w ^ (k + l) <= f * g <= / w ^ (k + l).
  Proof.
    intros Hf Hg. pose proof (w_pos k). pose proof (w_pos l). rewrite pow_add. split.
    - apply Rmult_le_compat; lra.
    - rewrite Rinv_mult. apply Rmult_le_compat; lra.
  Qed.
  Lemma rel_mul k l x y x' y' : rel k x y -> rel l x' y' -> rel (k + l) (x * x') (y * y').
  Proof. intros (f & -> & Hf) (g & -> & Hg). exists (f * g). split; [ring|]. apply factor_mul; assumption. Qed.
  Lemma rel_trans k l x y z : rel k x y -> rel l y z -> rel (k + l) x z.
  Proof. intros (f & -> & Hf) (g & -> & Hg). exists (f * g). split; [ring|]. apply factor_mul; assumption. Qed.
  Lemma rel_scale k c x y : rel k x y -> rel k (c * x) (c * y).
  Proof. intros (f & -> & Hf). exists f. split; [ring|exact Hf]. Qed.

  Lemma rel_bounds k x y : 0 <= y -> rel k x y -> w ^ k * y <= x <= / w ^ k * y.
  Proof. intros Y (f & -> & Hf). split; rewrite (Rmult_comm y); apply Rmult_le_compat_r; lra. Qed.
  Lemma bounds_rel k x y : 0 <= y -> w ^ k * y <= x <= / w ^ k * y -> rel k x y.
  Proof.
    intros [Y|Y] B.
    - exists (x / y). split; [field; lra|]. split.
      + apply (Rmult_le_reg_r y); [exact Y|]. unfold Rdiv. rewrite Rmult_assoc, Rinv_l by lra. lra.
      + apply (Rmult_le_reg_r y); [exact Y|]. unfold Rdiv. rewrite Rmult_assoc, Rinv_l by lra. lra.
    - subst y. exists 1. pose proof (w_le1 k). pose proof (wi_ge1 k). split; lra.
  Qed.
  Lemma rel_nonneg k x y : 0 <= y -> rel k x y -> 0 <= x.
  Proof.
    intros Y H. apply rel_bounds in H; [|exact Y]. pose proof (w_pos k).
    assert (0 <= w ^ k * y) by (apply Rmult_le_pos; lra). lra.
  Qed.
  Lemma rel_add k x y x' y' : 0 <= y -> 0 <= y' -> rel k x y -> rel k x' y' -> rel k (x + x') (y + y').
  Proof.
    intros Y Y' H H'. apply rel_bounds in H; [|exact Y]. apply rel_bounds in H'; [|exact Y'].
    apply bounds_rel; [lra|]. lra.
  Qed.
  Lemma rel_sqrt k x y : 0 <= y -> rel (2 * k) x y -> rel k (sqrt x) (sqrt y).
  Proof.
    intros Y (f & -> & Hf). pose proof (w_pos (2 * k)) as W2. pose proof (w_pos k) as W.
    exists (sqrt f). split; [apply sqrt_mult; lra|].
    assert (Q : w ^ (2 * k) = (w ^ k) * (w ^ k)) by (rewrite <- pow_add; f_equal; lia).
    split.
    - rewrite <- (sqrt_square (w ^ k)) by lra. rewrite <- Q. apply sqrt_le_1; lra.
    - pose proof (Rinv_0_lt_compat _ W). rewrite <- (sqrt_square (/ w ^ k)) by lra. rewrite <- Rinv_mult, <- Q.
      apply sqrt_le_1; lra.
  Qed.
  Lemma err_rel x y : Rabs (x - y) <= u * Rabs y -> rel 1 x y.
  Proof.
    intros H. destruct (Req_dec y 0) as [->|NZ].
    - rewrite Rabs_R0, Rmult_0_r, Rminus_0_r in H. exists 1. split.
      + rewrite Rmult_0_l. destruct (Req_dec x 0) as [->|N]; [reflexivity|]. apply Rabs_pos_lt in N. lra.
      + pose proof (w_le1 1). pose proof (wi_ge1 1). lra.
    - exists (x / y). split; [field; exact NZ|]. rewrite pow_1.
      assert (B : Rabs (x / y - 1) <= u).
      { replace (x / y - 1) with ((x - y) / y) by (field; exact NZ). unfold Rdiv. rewrite Rabs_mult, Rabs_inv.
        apply Rabs_pos_lt in NZ. apply (Rmult_le_reg_r (Rabs y)); [exact NZ|]. rewrite Rmult_assoc, Rinv_l by lra. lra. }
      apply Rabs_le_inv in B. split; [lra|].
      assert (1 + u <= / w). { apply (Rmult_le_reg_r w); [lra|]. rewrite Rinv_l by lra. nra. }
      lra.
  Qed.
  Lemma rel_0 k x : rel k x 0 -> x = 0.
  Proof. intros (f & -> & _). ring. Qed.
End Rel.

Section RelFloat.
  Context (prec emax : Z).
  Context (Hp : Prec_gt_0 prec) (He : Prec_lt_emax prec emax).
  Context (Hp1 : (1 < prec)%Z).
  Notation F := (binary_float prec emax).
  Notation FA := (farith prec emax Hp He).
  Notation rnd := (rnd prec emax).
  Notation emin := (3 - emax - prec)%Z.
  Notation u := (u_ro radix2 prec).
  Notation w := (1 - u).
  Notation normal := (bpow radix2 (emin + prec - 1)).
  Notation rel := (rel u).
  Let UB : 0 <= u <= / 2 := u_bnd prec Hp1.

  Lemma rel_plus (a b : F) : is_finite (a_add FA a b) = true -> rel 1 (B2R (a_add FA a b)) (B2R a + B2R b).
  Proof. intros H. apply err_rel; [exact UB|]. exact (proj1 (add_rel prec emax Hp He a b H)). Qed.

  Lemma rel_minus (a b : F) : is_finite (a_sub FA a b) = true -> rel 1 (B2R (a_sub FA a b)) (B2R a - B2R b).
  Proof.
    intros H. apply err_rel; [exact UB|]. destruct (minus_fin prec emax Hp He a b H) as (_ & _ & E). rewrite E.
    pose proof (u_pos prec) as U0.
    assert (G : generic_format radix2 (FLT_exp emin prec) (- B2R b)) by (apply generic_format_opp; apply fmt).
    destruct (FLT_plus_error_N_ex radix2 emin prec (fun x => negb (Z.even x)) (B2R a) (- B2R b) (fmt prec emax a) G) as (e1 & B1 & E1).
    unfold NumF.rnd. change (SpecFloat.fexp prec emax) with (FLT_exp emin prec). unfold Rminus at 2.
    rewrite E1. replace ((B2R a + - B2R b) * (1 + e1) - (B2R a - B2R b)) with (e1 * (B2R a - B2R b)) by ring.
    rewrite Rabs_mult. apply Rmult_le_compat_r; [apply Rabs_pos|].
    eapply Rle_trans; [exact B1|].
    apply (Rmult_le_reg_r (1 + u)); [lra|]. unfold Rdiv. rewrite Rmult_assoc, Rinv_l by lra. nra.
  Qed.

  Lemma rel_round x : normal <= Rabs x -> rel 1 (rnd x) x.
  Proof. intros H. apply err_rel; [exact UB|]. apply (rnd_rel prec emax Hp1). exact H. Qed.

  Lemma rel_mult (a b : F) k l x y : is_finite (a_mul FA a b) = true -> rel k (B2R a) x -> rel l (B2R b) y ->
    normal <= w ^ (k + l) * Rabs (x * y) -> rel (k + l + 1) (B2R (a_mul FA a b)) (x * y).
  Proof.
    intros H Ra Rb N. destruct (mult_fin prec emax Hp He a b H) as (_ & _ & E). rewrite E.
    pose proof (rel_mul u UB k l _ _ _ _ Ra Rb) as R2.
    replace (k + l + 1)%nat with (1 + (k + l))%nat by lia. eapply rel_trans; [exact UB| |exact R2].
    apply rel_round. destruct R2 as (f & E2 & Hf). rewrite E2, Rabs_mult.
    eapply Rle_trans; [exact N|]. rewrite Rmult_comm. apply Rmult_le_compat_l; [apply Rabs_pos|].
    pose proof (w_pos u UB (k + l)). rewrite Rabs_pos_eq; lra.
  Qed.

  Lemma rel_sq (a : F) k x : is_finite (a_mul FA a a) = true -> rel k (B2R a) x ->
    x = 0 \/ normal <= w ^ (k + k) * (x * x) -> rel (k + k + 1) (B2R (a_mul FA a a)) (x * x).
  Proof.
    intros H Ra [->|N].
    - destruct (mult_fin prec emax Hp He a a H) as (_ & _ & E). rewrite E. rewrite (rel_0 u _ _ Ra), !Rmult_0_l, rnd_0.
      apply (rel_mono u UB 0); [lia|apply rel_refl].
    - apply rel_mult; try assumption. rewrite (Rabs_pos_eq (x * x)) by apply Rle_0_sqr. exact N.
  Qed.

  Lemma rel_bsqrt (a : F) k x : is_finite (a_sqrt FA a) = true -> 0 <= x -> rel (2 * k) (B2R a) x ->
    rel (k + 1) (B2R (a_sqrt FA a)) (sqrt x).
  Proof.
    intros H X R. replace (k + 1)%nat with (1 + k)%nat by lia.
    eapply rel_trans; [exact UB| |apply rel_sqrt; [exact UB|exact X|exact R]].
    apply err_rel; [exact UB|]. rewrite (Rabs_pos_eq (sqrt (B2R a))) by apply sqrt_pos.
    apply sqrt_rel; assumption.
  Qed.

  Lemma rel_fold k : forall (l : list F) (t : list R) acc s, 0 <= s -> rel k (B2R acc) s ->
    Forall2 (fun x y => 0 <= y /\ rel k (B2R x) y) l t -> is_finite (fold_left (a_add FA) l acc) = true ->
    rel (k + length l) (B2R (fold_left (a_add FA) l acc)) (s + fold_right Rplus 0 t).
  Proof.
    intros l. revert k. induction l as [|x l IH]; intros k t acc s S R H Ff; inversion H as [|? y ? t' [Y Hy] Ht]; subst; cbn [fold_left fold_right length] in *.
    - rewrite Nat.add_0_r, Rplus_0_r. exact R.
    - destruct (fold_add_fin prec emax Hp He _ _ Ff) as [F1 _].
      replace (k + Datatypes.S (length l))%nat with ((k + 1) + length l)%nat by lia. rewrite <- Rplus_assoc.
      apply IH; try assumption; [lra| |].
      + replace (k + 1)%nat with (1 + k)%nat by lia. eapply rel_trans; [exact UB|apply rel_plus; exact F1|]. apply rel_add; assumption.
      + clear -Ht UB. induction Ht as [|a b l t [B1 B2] Ht IH]; constructor; [|exact IH].
        split; [exact B1|]. apply (rel_mono u UB k); [lia|exact B2].
  Qed.
End RelFloat.
