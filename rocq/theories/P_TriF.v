(** * P_TriF: forward error of tri_area in IEEE arithmetic *)
From Coq Require Import ZArith Reals List Bool Lia Lra Permutation.
From Flocq Require Import Core BinarySingleNaN Sterbenz Relative.
From Verif Require Import CSem CSemP Num NumP NumF NumX M_Int M_Stat M_Geom S_Geom P_Kbn P_SumF P_RelF P_Geom P_GeomR.
Import ListNotations.
Open Scope R_scope.

Section TriF.
  Context (prec emax : Z).
  Context (Hp : Prec_gt_0 prec) (He : Prec_lt_emax prec emax).
  Context (Hp1 : (1 < prec)%Z).
  Notation F := (binary_float prec emax).
  Notation FA := (farith prec emax Hp He).
  Notation rnd := (rnd prec emax).
  Notation emin := (3 - emax - prec)%Z.
  Notation u := (u_ro radix2 prec).
  Notation w := (1 - u).
  Notation normal := (bpow radix2 (emin + prec - 1)).
  Notation rel := (rel u).
  Let UB : 0 <= u <= / 2 := u_bnd prec Hp1.

  Lemma rnd_exact x : generic_format radix2 (FLT_exp emin prec) x -> rnd x = x.
  Proof. intros G. unfold NumF.rnd. change (SpecFloat.fexp prec emax) with (FLT_exp emin prec). apply round_generic; [typeclasses eauto|exact G]. Qed.

  (** the difference of two floats within a factor of two of one another is exact *)
  Lemma minus_exact (a b : F) : is_finite (a_sub FA a b) = true -> B2R b <= B2R a <= 2 * B2R b ->
    B2R (a_sub FA a b) = B2R a - B2R b.
  Proof.
    intros H B. destruct (minus_fin prec emax Hp He a b H) as (_ & _ & ->). apply rnd_exact.
    apply sterbenz; [typeclasses eauto|typeclasses eauto|apply fmt|apply fmt|]. lra.
  Qed.

  Lemma four_R : is_finite (a_ofZ FA 4) = true /\ B2R (a_ofZ FA 4) = 4 \/ (emax <= 2)%Z.
  Proof.
    destruct (Z_le_gt_dec emax 2) as [|E]; [right; assumption|left].
    pose proof (f2e_ofZ prec emax Hp He 4) as Q. unfold NumF.frnd in Q.
    assert (G : rnd (IZR 4) = 4).
    { apply rnd_exact. change 4 with (bpow radix2 2). apply generic_format_bpow. unfold FLT_exp. unfold Prec_gt_0 in Hp. lia. }
    rewrite G in Q. rewrite Rlt_bool_true in Q; [exact (f2e_fin_finite prec emax _ _ Q)|].
    rewrite Rabs_pos_eq by lra. change 4 with (bpow radix2 2). apply bpow_lt. lia.
  Qed.

  (** *** Heron's formula on three sorted sides *)
  Lemma heron_rel (a b c : F) tau : is_finite (heron FA a b c) = true -> (2 < emax)%Z ->
    0 <= B2R c -> B2R c <= B2R b -> B2R b <= B2R a -> 0 < tau ->
    tau <= B2R c - (B2R a - B2R b) ->
    normal <= w ^ 3 * tau ^ 2 -> normal <= w ^ 5 * tau ^ 3 -> normal <= w ^ 8 * tau ^ 4 -> normal <= w ^ 6 * (tau ^ 2 / 4) ->
    rel 7 (B2R (heron FA a b c))
      (sqrt ((B2R a + (B2R b + B2R c)) * (B2R c - (B2R a - B2R b)) * (B2R c + (B2R a - B2R b)) * (B2R a + (B2R b - B2R c))) / 4).
  Proof.
    intros Ff E2 C0 CB BA T0 TC N2 N3 N4 N5. unfold heron in *.
    destruct four_R as [[F4 R4]|?]; [|lia].
    set (x := B2R a) in *. set (y := B2R b) in *. set (z := B2R c) in *.
    set (g1 := a_add FA a (a_add FA b c)) in *. set (g2 := a_sub FA c (a_sub FA a b)) in *.
    set (g3 := a_add FA c (a_sub FA a b)) in *. set (g4 := a_add FA a (a_sub FA b c)) in *.
    destruct (div_fin prec emax Hp He (a_sqrt FA (a_mul FA (a_mul FA (a_mul FA g1 g2) g3) g4)) (a_ofZ FA 4) F4 ltac:(rewrite R4; lra) Ff) as [Fs Ed].
    destruct (sqrt_fin prec emax Hp He _ Fs) as (Fp3 & _ & _).
    destruct (mult_fin prec emax Hp He _ _ Fp3) as (Fp2 & Fg4 & _).
    destruct (mult_fin prec emax Hp He _ _ Fp2) as (Fp1 & Fg3 & _).
    destruct (mult_fin prec emax Hp He _ _ Fp1) as (Fg1 & Fg2 & _).
    destruct (plus_fin prec emax Hp He _ _ Fg1) as (_ & Fbc & _).
    destruct (minus_fin prec emax Hp He _ _ Fg2) as (_ & Fab & _).
    destruct (plus_fin prec emax Hp He _ _ Fg4) as (_ & Fbmc & _).
    assert (X2 : x <= 2 * y) by lra.
    pose proof (minus_exact a b Fab (conj BA X2)) as Eab. fold x y in Eab.
    (* the four factors *)
    assert (R1 : rel 2 (B2R g1) (x + (y + z))).
    { eapply (rel_trans u UB 1 1); [apply rel_plus; assumption|]. apply rel_add; [exact UB|lra|lra| |apply rel_plus; assumption].
      apply (rel_mono u UB 0); [lia|apply rel_refl]. }
    assert (R2 : rel 1 (B2R g2) (z - (x - y))).
    { pose proof (rel_minus prec emax Hp He Hp1 c (a_sub FA a b) Fg2) as Q. rewrite Eab in Q. exact Q. }
    assert (R3 : rel 1 (B2R g3) (z + (x - y))).
    { pose proof (rel_plus prec emax Hp He Hp1 c (a_sub FA a b) Fg3) as Q. rewrite Eab in Q. exact Q. }
    assert (R4' : rel 2 (B2R g4) (x + (y - z))).
    { eapply (rel_trans u UB 1 1); [apply rel_plus; assumption|]. apply rel_add; [exact UB|lra|lra| |apply rel_minus; assumption].
      apply (rel_mono u UB 0); [lia|apply rel_refl]. }
    assert (L1 : tau <= x + (y + z)) by lra. assert (L3 : tau <= z + (x - y)) by lra. assert (L4 : tau <= x + (y - z)) by lra.
    set (f1 := x + (y + z)) in *. set (f2 := z - (x - y)) in *. set (f3 := z + (x - y)) in *. set (f4 := x + (y - z)) in *.
    assert (Q2 : tau ^ 2 <= f1 * f2). { replace (tau ^ 2) with (tau * tau) by ring. apply Rmult_le_compat; lra. }
    assert (P2 : 0 <= tau ^ 2) by (apply pow_le; lra).
    assert (Q3 : tau ^ 3 <= f1 * f2 * f3). { replace (tau ^ 3) with (tau ^ 2 * tau) by ring. apply Rmult_le_compat; lra. }
    assert (P3 : 0 <= tau ^ 3) by (apply pow_le; lra).
    assert (Q4 : tau ^ 4 <= f1 * f2 * f3 * f4). { replace (tau ^ 4) with (tau ^ 3 * tau) by ring. apply Rmult_le_compat; lra. }
    assert (P4 : 0 <= tau ^ 4) by (apply pow_le; lra).
    assert (M1 : rel 4 (B2R (a_mul FA g1 g2)) (f1 * f2)).
    { apply (rel_mult prec emax Hp He Hp1 g1 g2 2 1 f1 f2 Fp1 R1 R2). rewrite Rabs_pos_eq by lra.
      eapply Rle_trans; [exact N2|]. apply Rmult_le_compat_l; [left; apply (w_pos u UB)|exact Q2]. }
    assert (M2 : rel 6 (B2R (a_mul FA (a_mul FA g1 g2) g3)) (f1 * f2 * f3)).
    { apply (rel_mult prec emax Hp He Hp1 _ g3 4 1 (f1 * f2) f3 Fp2 M1 R3). rewrite Rabs_pos_eq by lra.
      eapply Rle_trans; [exact N3|]. apply Rmult_le_compat_l; [left; apply (w_pos u UB)|exact Q3]. }
    assert (M3 : rel 9 (B2R (a_mul FA (a_mul FA (a_mul FA g1 g2) g3) g4)) (f1 * f2 * f3 * f4)).
    { apply (rel_mult prec emax Hp He Hp1 _ g4 6 2 (f1 * f2 * f3) f4 Fp3 M2 R4'). rewrite Rabs_pos_eq by lra.
      eapply Rle_trans; [exact N4|]. apply Rmult_le_compat_l; [left; apply (w_pos u UB)|exact Q4]. }
    set (P := f1 * f2 * f3 * f4) in *.
    assert (SQ : rel 6 (B2R (a_sqrt FA (a_mul FA (a_mul FA (a_mul FA g1 g2) g3) g4))) (sqrt P)).
    { apply (rel_bsqrt prec emax Hp He Hp1 _ 5 P Fs); [lra|]. apply (rel_mono u UB 9); [lia|exact M3]. }
    assert (QS : tau ^ 2 <= sqrt P).
    { rewrite <- (sqrt_square (tau ^ 2)) by lra. apply sqrt_le_1; [nra|lra|]. replace (tau ^ 2 * tau ^ 2) with (tau ^ 4) by ring. exact Q4. }
    rewrite Ed, R4. unfold Rdiv. change 7%nat with (1 + 6)%nat.
    assert (RD : rel 6 (B2R (a_sqrt FA (a_mul FA (a_mul FA (a_mul FA g1 g2) g3) g4)) * / 4) (sqrt P * / 4)).
    { rewrite (Rmult_comm _ (/ 4)), (Rmult_comm (sqrt P)). apply rel_scale. exact SQ. }
    eapply rel_trans; [exact UB| |exact RD].
    apply (rel_round prec emax Hp1). apply (rel_bounds u) in RD; [|lra].
    assert (W6 : 0 < w ^ 6) by apply (w_pos u UB).
    assert (Z0 : 0 <= w ^ 6 * (sqrt P * / 4)) by (apply Rmult_le_pos; lra).
    rewrite Rabs_pos_eq by lra. eapply Rle_trans; [exact N5|]. eapply Rle_trans; [|exact (proj1 RD)].
    apply Rmult_le_compat_l; lra.
  Qed.

  (** *** the length of a side *)
  Definition clear (p q : list F) : Prop :=
    forall x y, In (x, y) (combine p q) -> B2R x = B2R y \/ normal <= w ^ 2 * ((B2R y - B2R x) * (B2R y - B2R x)).

  Lemma dot_vsub_sum : forall p q : list F,
    dot (vsub (map B2R q) (map B2R p)) (vsub (map B2R q) (map B2R p)) =
    fold_right Rplus 0 (map (fun xy => (B2R (snd xy) - B2R (fst xy)) * (B2R (snd xy) - B2R (fst xy))) (combine p q)).
  Proof.
    induction p as [|x p IH]; intros [|y q]; try reflexivity. cbn [map combine fold_right fst snd].
    rewrite vsub_cons, dot_cons, IH. reflexivity.
  Qed.

  Lemma side_rel (p q : list F) k : length q = length p -> clear p q -> is_finite (nd FA p q) = true ->
    (length p + 3 <= 2 * k)%nat ->
    rel (k + 1) (B2R (nd FA p q)) (sqrt (dot (vsub (map B2R q) (map B2R p)) (vsub (map B2R q) (map B2R p)))).
  Proof.
    intros L C Ff K. unfold nd in *. set (h := fun xy : F * F => a_mul FA (a_sub FA (snd xy) (fst xy)) (a_sub FA (snd xy) (fst xy))).
    change (fun s xy => a_add FA s (a_mul FA (a_sub FA (snd xy) (fst xy)) (a_sub FA (snd xy) (fst xy)))) with (fun s xy => a_add FA s (h xy)) in *.
    rewrite fold_map_add in *.
    destruct (sqrt_fin prec emax Hp He _ Ff) as (Fs & _ & _).
    destruct (fold_add_fin prec emax Hp He _ _ Fs) as [_ Fx].
    rewrite dot_vsub_sum. set (t := map (fun xy : F * F => (B2R (snd xy) - B2R (fst xy)) * (B2R (snd xy) - B2R (fst xy))) (combine p q)).
    assert (T : forall xy : F * F, 0 <= (B2R (snd xy) - B2R (fst xy)) * (B2R (snd xy) - B2R (fst xy))) by (intros; apply Rle_0_sqr).
    assert (T0 : 0 <= fold_right Rplus 0 t).
    { unfold t. clear. induction (combine p q) as [|xy l IH]; cbn [map fold_right]; [lra|].
      pose proof (Rle_0_sqr (B2R (snd xy) - B2R (fst xy))) as Q. unfold Rsqr in Q. lra. }
    apply rel_bsqrt; try assumption. 
    apply (rel_mono u UB (3 + length (map h (combine p q)))).
    { rewrite map_length, combine_length. lia. }
    rewrite <- (Rplus_0_l (fold_right Rplus 0 t)).
    apply rel_fold; try assumption; [lra| |].
    - rewrite ofZ0_R by assumption. apply (rel_mono u UB 0); [lia|apply rel_refl].
    - unfold t. unfold clear in C. revert C Fx. generalize (combine p q) as l. clear -UB Hp1 T.
      induction l as [|[x y] l IH]; intros C Fx; cbn [map]; constructor.
      + split; [apply T|]. cbn [fst snd]. unfold h. cbn [fst snd].
        assert (FM : is_finite (h (x, y)) = true) by (apply Fx; left; reflexivity). unfold h in FM. cbn [fst snd] in FM.
        destruct (mult_fin prec emax Hp He _ _ FM) as (FD & _ & _).
        apply (rel_sq prec emax Hp He Hp1 _ 1); [exact FM|apply rel_minus; assumption|].
        destruct (C x y (or_introl eq_refl)) as [E|N]; [left; lra|right; exact N].
      + apply IH; [intros a b H; apply C; right; exact H|intros v H; apply Fx; right; exact H].
  Qed.

  (** *** sorting *)
  Lemma gtb_F (a b : F) : is_finite a = true -> is_finite b = true -> gtb (a_cmp FA) a b = Rlt_bool (B2R b) (B2R a).
  Proof.
    intros Fa Fb. unfold gtb. cbn [a_cmp farith]. rewrite Bcompare_correct by assumption.
    destruct (Rcompare_spec (B2R a) (B2R b)); destruct (Rlt_bool_spec (B2R b) (B2R a)); try reflexivity; exfalso; lra.
  Qed.

  Lemma sort_sides_F (a b c x y z : F) : sort_sides FA a b c = (x, y, z) ->
    is_finite x = true -> is_finite y = true -> is_finite z = true ->
    Permutation [a; b; c] [x; y; z] /\ B2R z <= B2R y /\ B2R y <= B2R x.
  Proof.
    intros S Fx Fy Fz. unfold sort_sides in S.
    assert (R3 : forall l1 l2 l3 : F, Permutation [l1; l2; l3] [l3; l1; l2]) by (intros l1 l2 l3; symmetry; apply (Permutation_cons_append [l1; l2] l3)).
    destruct (gtb (a_cmp FA) b a) eqn:G1;
      [destruct (gtb (a_cmp FA) c b) eqn:G2; [|destruct (gtb (a_cmp FA) c a) eqn:G3]
      |destruct (gtb (a_cmp FA) c a) eqn:G2; [|destruct (gtb (a_cmp FA) c b) eqn:G3]];
      injection S as <- <- <-; rewrite gtb_F in * by assumption;
      repeat match goal with
      | H : Rlt_bool ?x ?y = true |- _ => destruct (Rlt_bool_spec x y); [clear H|discriminate H]
      | H : Rlt_bool ?x ?y = false |- _ => destruct (Rlt_bool_spec x y); [discriminate H|clear H]
      end; (split; [|split; lra]).
    - apply (Permutation_rev [a; b; c]).
    - apply (Permutation_cons_append [b; c] a).
    - apply perm_swap.
    - apply R3.
    - apply perm_skip, perm_swap.
    - apply Permutation_refl.
  Qed.

  Lemma heron_fin (a b c : F) : (2 < emax)%Z -> is_finite (heron FA a b c) = true ->
    is_finite a = true /\ is_finite b = true /\ is_finite c = true.
  Proof.
    intros E2 Ff. unfold heron in Ff. destruct four_R as [[F4 R4]|?]; [|lia].
    destruct (div_fin prec emax Hp He _ (a_ofZ FA 4) F4 ltac:(rewrite R4; lra) Ff) as [Fs Ed].
    destruct (sqrt_fin prec emax Hp He _ Fs) as (Fp3 & _ & _).
    destruct (mult_fin prec emax Hp He _ _ Fp3) as (Fp2 & Fg4 & _).
    destruct (plus_fin prec emax Hp He _ _ Fg4) as (Fa & Fbmc & _).
    destruct (minus_fin prec emax Hp He _ _ Fbmc) as (Fb & Fc & _). auto.
  Qed.

  (** *** from the errors of the sides to the error of the area *)
  Lemma rel_abs k x y : 0 <= y -> rel k x y -> Rabs (x - y) <= (/ w ^ k - 1) * y.
  Proof.
    intros Y H. apply (rel_bounds u) in H; [|exact Y]. pose proof (w_pos u UB k) as W. pose proof (w_le1 u UB k) as W1.
    assert (I : 1 - w ^ k <= / w ^ k - 1).
    { apply (Rmult_le_reg_r (w ^ k)); [exact W|]. replace ((/ w ^ k - 1) * w ^ k) with (1 - w ^ k) by (field; lra). pose proof (Rle_0_sqr (1 - w ^ k)) as Q. unfold Rsqr in Q. lra. }
    apply Rabs_le. split; [|lra]. assert ((1 - w ^ k) * y <= (/ w ^ k - 1) * y) by (apply Rmult_le_compat_r; assumption). lra.
  Qed.

  Lemma factor_bnd (f f' e : R) : 0 <= f -> Rabs (f' - f) <= e * f -> (1 - e) * f <= f' <= (1 + e) * f.
  Proof. intros Hf H. apply Rabs_le_inv in H. lra. Qed.

  Lemma prod4_bnd e a b c d a' b' c' d' : 0 <= e <= 1 -> 0 <= a -> 0 <= b -> 0 <= c -> 0 <= d ->
    (1 - e) * a <= a' <= (1 + e) * a -> (1 - e) * b <= b' <= (1 + e) * b ->
    (1 - e) * c <= c' <= (1 + e) * c -> (1 - e) * d <= d' <= (1 + e) * d ->
    (1 - e) ^ 4 * (a * b * c * d) <= a' * b' * c' * d' <= (1 + e) ^ 4 * (a * b * c * d).
  Proof.
    intros Ee A B C D Ha Hb Hc Hd.
    assert (X : forall z, 0 <= z -> 0 <= (1 - e) * z) by (intros; apply Rmult_le_pos; lra).
    pose proof (X a A) as XA. pose proof (X b B) as XB. pose proof (X c C) as XC. pose proof (X d D) as XD.
    assert (Y : forall p q, 0 <= p -> 0 <= q -> 0 <= p * q) by (intros; apply Rmult_le_pos; assumption).
    split.
    - replace ((1 - e) ^ 4 * (a * b * c * d)) with ((1 - e) * a * ((1 - e) * b) * ((1 - e) * c) * ((1 - e) * d)) by ring.
      apply Rmult_le_compat; [auto| auto| |lra]. apply Rmult_le_compat; [auto|auto| |lra]. apply Rmult_le_compat; lra.
    - replace ((1 + e) ^ 4 * (a * b * c * d)) with ((1 + e) * a * ((1 + e) * b) * ((1 + e) * c) * ((1 + e) * d)) by ring.
      assert (0 <= a') by lra. assert (0 <= b') by lra. assert (0 <= c') by lra. assert (0 <= d') by lra.
      apply Rmult_le_compat; [auto| auto| |lra]. apply Rmult_le_compat; [auto|auto| |lra]. apply Rmult_le_compat; lra.
  Qed.

  Lemma sqrt_pow4 g P : 0 <= g -> 0 <= P -> sqrt (g ^ 4 * P) = g ^ 2 * sqrt P.
  Proof.
    intros G HP. assert (0 <= g ^ 4) by (apply pow_le; exact G). rewrite sqrt_mult by assumption. f_equal.
    replace (g ^ 4) with (g ^ 2 * g ^ 2) by ring. apply sqrt_square. apply pow_le. exact G.
  Qed.

  Notation side p q := (sqrt (dot (vsub q p) (vsub q p))).

  Lemma gram_heron (p q r : list R) a b c : length q = length p -> length r = length p ->
    Permutation [side p q; side p r; side q r] [a; b; c] ->
    gram_area p q r = sqrt ((a + (b + c)) * (c - (a - b)) * (c + (a - b)) * (a + (b - c))) / 4.
  Proof.
    intros Hq Hr P. rewrite heron_poly, <- (heron_poly_perm _ _ _ _ _ _ P).
    set (s := vsub q p). set (t := vsub r p).
    assert (LU : length t = length s) by (unfold s, t; rewrite !vsub_length; congruence).
    assert (SQ : forall z, sqrt (dot z z) * sqrt (dot z z) = dot z z) by (intros; apply sqrt_sqrt, dot_self_nonneg).
    rewrite !SQ. rewrite (law_of_cosines p q r Hq Hr). fold s t.
    pose proof (gram_nonneg s t LU) as N.
    replace (4 * dot s s * dot t t - (dot s s + dot t t - (dot t t + dot s s - 2 * dot s t)) * (dot s s + dot t t - (dot t t + dot s s - 2 * dot s t)))
      with ((2 * 2) * (dot s s * dot t t - dot s t * dot s t)) by ring.
    rewrite sqrt_mult by lra. rewrite sqrt_square by lra. unfold gram_area. fold s t. cbn zeta. field.
  Qed.

  Lemma tri_val_bound (p q r : list F) n k t kap :
    length p = n -> length q = n -> length r = n -> (n + 3 <= 2 * k)%nat -> (2 < emax)%Z ->
    (forall x y, In (x, y) (combine p q ++ combine p r ++ combine q r) ->
       B2R x = B2R y \/ normal <= w ^ 2 * ((B2R y - B2R x) * (B2R y - B2R x))) ->
    let a := side (map B2R p) (map B2R q) in let b := side (map B2R p) (map B2R r) in let c := side (map B2R q) (map B2R r) in
    let e := (/ w ^ (k + 1) - 1) * kap in
    0 < t -> t <= b + c - a -> t <= a + c - b -> t <= a + b - c -> a + b + c <= kap * t ->
    e <= / 2 -> normal <= (t / 32) ^ 4 ->
    is_finite (tri_val FA p q r) = true ->
    gram_area (map B2R p) (map B2R q) (map B2R r) * ((1 - e) ^ 2 * w ^ 7) <= B2R (tri_val FA p q r) <=
    gram_area (map B2R p) (map B2R q) (map B2R r) * ((1 + e) ^ 2 * / w ^ 7).
  Proof.
    intros Lp Lq Lr K E2 CL a b c e T0 Ta Tb Tc KT EH NM Ff. unfold tri_val in *.
    destruct (sort_sides FA (nd FA p q) (nd FA p r) (nd FA q r)) as [[x y] z] eqn:S.
    destruct (heron_fin x y z E2 Ff) as (Fx & Fy & Fz).
    destruct (sort_sides_F _ _ _ _ _ _ S Fx Fy Fz) as (PM & ZY & YX).
    assert (PF : forall v, In v [nd FA p q; nd FA p r; nd FA q r] -> is_finite v = true).
    { intros v Hv. apply (Permutation_in v PM) in Hv. destruct Hv as [<-|[<-|[<-|[]]]]; assumption. }
    assert (C1 : clear p q) by (intros ? ? ?; apply CL; rewrite !in_app_iff; tauto).
    assert (C2 : clear p r) by (intros ? ? ?; apply CL; rewrite !in_app_iff; tauto).
    assert (C3 : clear q r) by (intros ? ? ?; apply CL; rewrite !in_app_iff; tauto).
    assert (RA : Forall (fun fs => 0 <= snd fs /\ rel (k + 1) (B2R (fst fs)) (snd fs) /\ t <= (a + b + c) - 2 * snd fs)
                   [(nd FA p q, a); (nd FA p r, b); (nd FA q r, c)]).
    { apply Forall_cons; [|apply Forall_cons; [|apply Forall_cons; [|apply Forall_nil]]]; cbn [fst snd];
        (split; [apply sqrt_pos|split; [apply side_rel; [congruence|assumption|apply PF; cbn; tauto|lia]|lra]]). }
    change [nd FA p q; nd FA p r; nd FA q r] with (map fst [(nd FA p q, a); (nd FA p r, b); (nd FA q r, c)]) in PM.
    apply Permutation_sym, Permutation_map_inv in PM. destruct PM as (l3 & EL & PL).
    pose proof (Permutation_Forall PL RA) as RB.
    destruct l3 as [|[x' a'] [|[y' b'] [|[z' c'] [|? ?]]]]; try discriminate EL. cbn in EL. injection EL as <- <- <-.
    pose proof (Permutation_map snd PL) as PS. cbn [map snd] in PS.
    assert (SUM : a + b + c = a' + b' + c').
    { apply (perm3 (fun a b c => a + b + c)) with (a := a) (b := b) (c := c) (a' := a') (b' := b') (c' := c'); [intros; ring|intros; ring|exact PS]. }
    rewrite SUM in *. clear RA.
    inversion RB as [|? ? (A0 & AR & AT) RB1]; subst. inversion RB1 as [|? ? (B0 & BR & BT) RB2]; subst.
    inversion RB2 as [|? ? (C0 & CR & CT) _]; subst. cbn [fst snd] in *.
    rewrite (gram_heron (map B2R p) (map B2R q) (map B2R r) a' b' c') by (rewrite ?map_length; try congruence; exact PS).
    apply rel_abs in AR; [|exact A0]. apply rel_abs in BR; [|exact B0]. apply rel_abs in CR; [|exact C0].
    set (d := / w ^ (k + 1) - 1) in *.
    assert (D0 : 0 <= d) by (unfold d; pose proof (wi_ge1 u UB (k + 1)); lra).
    assert (DS : d * (a' + b' + c') <= e * t). { unfold e. fold d. rewrite Rmult_assoc. apply Rmult_le_compat_l; assumption. }
    assert (E0 : 0 <= e). { apply (Rmult_le_reg_r t); [exact T0|]. rewrite Rmult_0_l. eapply Rle_trans; [|exact DS]. apply Rmult_le_pos; lra. }
    set (X := B2R x) in *. set (Y := B2R y) in *. set (Z := B2R z) in *.
    apply Rabs_le_inv in AR. apply Rabs_le_inv in BR. apply Rabs_le_inv in CR.
    assert (FB : forall f f', t <= f -> Rabs (f' - f) <= d * (a' + b' + c') -> (1 - e) * f <= f' <= (1 + e) * f).
    { intros f f' Hf H. apply factor_bnd; [lra|]. eapply Rle_trans; [exact H|]. eapply Rle_trans; [exact DS|]. apply Rmult_le_compat_l; assumption. }
    assert (F1 : (1 - e) * (a' + (b' + c')) <= X + (Y + Z) <= (1 + e) * (a' + (b' + c'))).
    { apply FB; [lra|]. apply Rabs_le. lra. }
    assert (F2 : (1 - e) * (c' - (a' - b')) <= Z - (X - Y) <= (1 + e) * (c' - (a' - b'))).
    { apply FB; [lra|]. apply Rabs_le. lra. }
    assert (F3 : (1 - e) * (c' + (a' - b')) <= Z + (X - Y) <= (1 + e) * (c' + (a' - b'))).
    { apply FB; [lra|]. apply Rabs_le. lra. }
    assert (F4 : (1 - e) * (a' + (b' - c')) <= X + (Y - Z) <= (1 + e) * (a' + (b' - c'))).
    { apply FB; [lra|]. apply Rabs_le. lra. }
    assert (PB : (1 - e) ^ 4 * ((a' + (b' + c')) * (c' - (a' - b')) * (c' + (a' - b')) * (a' + (b' - c'))) <=
                 (X + (Y + Z)) * (Z - (X - Y)) * (Z + (X - Y)) * (X + (Y - Z)) <=
                 (1 + e) ^ 4 * ((a' + (b' + c')) * (c' - (a' - b')) * (c' + (a' - b')) * (a' + (b' - c')))).
    { apply prod4_bnd; assumption || lra. }
    set (P := (a' + (b' + c')) * (c' - (a' - b')) * (c' + (a' - b')) * (a' + (b' - c'))) in *.
    assert (P0 : 0 <= P) by (unfold P; repeat apply Rmult_le_pos; lra).
    assert (F2t : t / 2 <= Z - (X - Y)).
    { eapply Rle_trans; [|exact (proj1 F2)]. replace (t / 2) with (/ 2 * t) by field. apply Rmult_le_compat; lra. }
    set (h := t / 32) in *. assert (H0 : 0 < h) by (unfold h; lra).
    assert (N1 : normal <= 1). { change 1 with (bpow radix2 0). apply bpow_le. unfold Prec_gt_0 in Hp. lia. }
    assert (NP : normal <= h ^ 2 /\ normal <= h ^ 3).
    { destruct (Rle_dec h 1) as [L|L].
      - assert (h ^ 4 <= h ^ 3). { replace (h ^ 4) with (h ^ 3 * h) by ring. rewrite <- (Rmult_1_r (h ^ 3)) at 2. apply Rmult_le_compat_l; [apply pow_le; lra|exact L]. }
        assert (h ^ 3 <= h ^ 2). { replace (h ^ 3) with (h ^ 2 * h) by ring. rewrite <- (Rmult_1_r (h ^ 2)) at 2. apply Rmult_le_compat_l; [apply pow_le; lra|exact L]. }
        lra.
      - assert (1 <= h ^ 2) by (apply pow_R1_Rle; lra). assert (1 <= h ^ 3) by (apply pow_R1_Rle; lra). lra. }
    assert (HT : t / 2 = 16 * h) by (unfold h; field).
    assert (W : forall m, (/ 2) ^ m <= w ^ m) by (intros m; apply pow_incr; lra).
    assert (HP : forall m, 0 <= h ^ m) by (intros m; apply pow_le; lra).
    assert (HR : rel 7 (B2R (heron FA x y z)) (sqrt ((X + (Y + Z)) * (Z - (X - Y)) * (Z + (X - Y)) * (X + (Y - Z))) / 4)).
    { apply (heron_rel x y z (t / 2)); try assumption; try lra.
      - fold Z. assert (0 <= c' * (1 - d)). { apply Rmult_le_pos; [exact C0|]. assert (d * t <= e * t). { eapply Rle_trans; [|exact DS]. apply Rmult_le_compat_l; lra. } assert (d <= e) by (apply (Rmult_le_reg_r t); assumption). lra. } lra.
      - rewrite HT. pose proof (W 3%nat). eapply Rle_trans; [exact (proj1 NP)|]. apply Rle_trans with ((/ 2) ^ 3 * (16 * h) ^ 2).
        + pose proof (HP 2%nat). rewrite Rpow_mult_distr. lra.
        + apply Rmult_le_compat_r; [apply pow_le; lra|assumption].
      - rewrite HT. pose proof (W 5%nat). eapply Rle_trans; [exact (proj2 NP)|]. apply Rle_trans with ((/ 2) ^ 5 * (16 * h) ^ 3).
        + pose proof (HP 3%nat). rewrite Rpow_mult_distr. lra.
        + apply Rmult_le_compat_r; [apply pow_le; lra|assumption].
      - rewrite HT. pose proof (W 8%nat). eapply Rle_trans; [exact NM|]. apply Rle_trans with ((/ 2) ^ 8 * (16 * h) ^ 4).
        + pose proof (HP 4%nat). rewrite Rpow_mult_distr. lra.
        + apply Rmult_le_compat_r; [apply pow_le; lra|assumption].
      - rewrite HT. pose proof (W 6%nat). eapply Rle_trans; [exact (proj1 NP)|]. apply Rle_trans with ((/ 2) ^ 6 * ((16 * h) ^ 2 / 4)).
        + pose proof (HP 2%nat). rewrite Rpow_mult_distr. lra.
        + apply Rmult_le_compat_r; [|assumption]. assert (0 <= (16 * h) ^ 2) by (apply pow_le; lra). lra. }
    set (P' := (X + (Y + Z)) * (Z - (X - Y)) * (Z + (X - Y)) * (X + (Y - Z))) in *.
    assert (S1 : (1 - e) ^ 2 * sqrt P <= sqrt P').
    { rewrite <- sqrt_pow4 by lra. assert (0 <= (1 - e) ^ 4 * P) by (apply Rmult_le_pos; [apply pow_le; lra|exact P0]). apply sqrt_le_1; lra. }
    assert (S2 : sqrt P' <= (1 + e) ^ 2 * sqrt P).
    { rewrite <- sqrt_pow4 by lra. assert (0 <= (1 - e) ^ 4 * P) by (apply Rmult_le_pos; [apply pow_le; lra|exact P0]). apply sqrt_le_1; lra. }
    pose proof (sqrt_pos P') as SP. apply (rel_bounds u) in HR; [|lra].
    pose proof (w_pos u UB 7) as W7. pose proof (Rinv_0_lt_compat _ W7) as W7'.
    split.
    - eapply Rle_trans; [|exact (proj1 HR)].
      replace (sqrt P / 4 * ((1 - e) ^ 2 * w ^ 7)) with (w ^ 7 * (((1 - e) ^ 2 * sqrt P) / 4)) by field.
      apply Rmult_le_compat_l; lra.
    - eapply Rle_trans; [exact (proj2 HR)|].
      replace (sqrt P / 4 * ((1 + e) ^ 2 * / w ^ 7)) with (/ w ^ 7 * (((1 + e) ^ 2 * sqrt P) / 4)) by (unfold Rdiv; ring).
      apply Rmult_le_compat_l; lra.
  Qed.

  Theorem tri_area_bound (m : mem F) (bp s0 s1 : Z) (p q r : list F) n k t kap v :
    view2 m bp s0 s1 [p; q; r] -> length p = n -> length q = n -> length r = n -> (Z.of_nat n <= INT_MAX)%Z ->
    (n + 3 <= 2 * k)%nat -> (2 < emax)%Z ->
    (forall x y, In (x, y) (combine p q ++ combine p r ++ combine q r) ->
       B2R x = B2R y \/ normal <= w ^ 2 * ((B2R y - B2R x) * (B2R y - B2R x))) ->
    let a := side (map B2R p) (map B2R q) in let b := side (map B2R p) (map B2R r) in let c := side (map B2R q) (map B2R r) in
    let e := (/ w ^ (k + 1) - 1) * kap in
    0 < t -> t <= b + c - a -> t <= a + c - b -> t <= a + b - c -> a + b + c <= kap * t ->
    e <= / 2 -> normal <= (t / 32) ^ 4 ->
    tri_area_core_calc FA (Z.of_nat n) m bp s0 s1 = Some v -> is_finite v = true ->
    gram_area (map B2R p) (map B2R q) (map B2R r) * ((1 - e) ^ 2 * w ^ 7) <= B2R v <=
    gram_area (map B2R p) (map B2R q) (map B2R r) * ((1 + e) ^ 2 * / w ^ 7).
  Proof.
    intros V Lp Lq Lr Hn K E2 CL a b c e T0 Ta Tb Tc KT EH NM Hv Ff.
    rewrite (tri_area_val FA m bp s0 s1 n p q r V Lp Lq Lr Hn) in Hv. injection Hv as <-.
    exact (tri_val_bound p q r n k t kap Lp Lq Lr K E2 CL T0 Ta Tb Tc KT EH NM Ff).
  Qed.
End TriF.
