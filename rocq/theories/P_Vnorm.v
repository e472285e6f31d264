(** Proofs about vnorm, rms and vdot. *)
From Coq Require Import ZArith Reals List Bool Lia Lra.
From Flocq Require Import Core BinarySingleNaN.
From Verif Require Import CSem CSemP FoldP Num NumP NumF NumX M_Stat S_Stat P_Kbn P_MeanVar.
Import ListNotations.
Open Scope R_scope.

(** ** powers of nonnegative reals *)
Lemma rpow_0 p : rpow 0 p = 0.
Proof. unfold rpow. destruct (Req_EM_T 0 0); congruence. Qed.
Lemma rpow_pos a p : a <> 0 -> rpow a p = Rpower a p.
Proof. unfold rpow. destruct (Req_EM_T a 0); congruence. Qed.
Lemma rpow_nonneg a p : 0 <= rpow a p.
Proof. unfold rpow. destruct (Req_EM_T a 0); [lra|]. left. apply exp_pos. Qed.
Lemma rpow_zero a p : rpow a p = 0 -> a = 0.
Proof. unfold rpow. destruct (Req_EM_T a 0); [auto|]. intros E. pose proof (exp_pos (p * ln a)). unfold Rpower in E. lra. Qed.
Lemma rpow_1 a : 0 <= a -> rpow a 1 = a.
Proof. intros H. unfold rpow. destruct (Req_EM_T a 0); [lra|]. apply Rpower_1. lra. Qed.
Lemma rpow_mult a b p : 0 <= a -> 0 <= b -> rpow (a * b) p = rpow a p * rpow b p.
Proof.
  intros Ha Hb. destruct (Req_dec a 0) as [->|Na]; [rewrite Rmult_0_l, !rpow_0; ring|].
  destruct (Req_dec b 0) as [->|Nb]; [rewrite Rmult_0_r, !rpow_0; ring|].
  rewrite !rpow_pos by nra. symmetry. apply Rpower_mult_distr; lra.
Qed.
Lemma rpow_rpow a p q : 0 <= a -> rpow (rpow a p) q = rpow a (p * q).
Proof.
  intros Ha. destruct (Req_dec a 0) as [->|Na]; [rewrite !rpow_0; reflexivity|].
  rewrite (rpow_pos a p), (rpow_pos a (p * q)) by exact Na.
  rewrite rpow_pos by (apply Rgt_not_eq, exp_pos). apply Rpower_mult.
Qed.
Lemma rpow_inv a p : 0 <= a -> p <> 0 -> rpow (rpow a p) (/ p) = a.
Proof. intros Ha Hp. rewrite rpow_rpow by exact Ha. rewrite Rinv_r by exact Hp. apply rpow_1, Ha. Qed.

Lemma pnorm_scale p c l : 0 < p -> 0 <= c -> (forall a, In a l -> 0 <= a) ->
  pnorm p (map (fun a => c * a) l) = c * pnorm p l.
Proof.
  intros Hp Hc H. unfold pnorm. rewrite map_map.
  rewrite (rsum_ext _ (fun a => rpow c p * rpow a p)) by (intros a Ha; apply rpow_mult; [exact Hc|apply H, Ha]).
  rewrite rsum_map_scal. rewrite rpow_mult; [|apply rpow_nonneg|].
  - rewrite rpow_inv by lra. reflexivity.
  - apply rsum_nonneg. intros a Ha. apply in_map_iff in Ha. destruct Ha as (b & <- & _). apply rpow_nonneg.
Qed.

Lemma pnorm_nonneg p l : 0 <= pnorm p l.
Proof. apply rpow_nonneg. Qed.
Lemma pnorm_zero p l : 0 < p -> (pnorm p l = 0 <-> forall a, In a l -> a = 0).
Proof.
  intros Hp. unfold pnorm. split.
  - intros E a Ha. apply rpow_zero in E.
    apply (rpow_zero a p). apply (rsum_zero (map (fun a => rpow a p) l)).
    + intros b Hb. apply in_map_iff in Hb. destruct Hb as (c & <- & _). apply rpow_nonneg.
    + exact E.
    + apply in_map_iff. exists a. split; [reflexivity|exact Ha].
  - intros H. rewrite (rsum_ext _ (fun _ => 0)).
    + rewrite rsum_const, Rmult_0_r. apply rpow_0.
    + intros a Ha. rewrite (H a Ha). apply rpow_0.
Qed.

(** ** vnorm *)
Section Vnorm.
  Context {T : Type} (absf : T -> ER) (rf : T -> R).

  Lemma vmax_fold : forall l m, (forall t, In t l -> absf t = Fin (rf t)) -> 
    exists m', fold_left (fun maxabsx t => if gtb ecmp (absf t) maxabsx then absf t else maxabsx) l (Fin m) = Fin m' /\
      m <= m' /\ (forall t, In t l -> rf t <= m') /\ (m' = m \/ exists t, In t l /\ rf t = m').
  Proof.
    induction l as [|t l IH]; intros m H.
    - exists m. cbn. split; [reflexivity|]. split; [lra|]. split; [intros t []|left; reflexivity].
    - cbn [fold_left]. rewrite (H t (or_introl eq_refl)).
      assert (Hl : forall s, In s l -> absf s = Fin (rf s)) by (intros s Hs; apply H; right; exact Hs).
      destruct (gtb ecmp (Fin (rf t)) (Fin m)) eqn:E.
      + apply gtb_Fin in E. destruct (IH (rf t) Hl) as (m' & E1 & E2 & E3 & E4). exists m'. split; [exact E1|].
        split; [lra|]. split.
        * intros s [<-|Hs]; [exact E2|apply E3, Hs].
        * right. destruct E4 as [->|(s & Hs & Es)]; [exists t; split; [left|]; reflexivity|exists s; split; [right|]; assumption].
      + apply gtb_Fin_false in E. destruct (IH m Hl) as (m' & E1 & E2 & E3 & E4). exists m'. split; [exact E1|].
        split; [lra|]. split.
        * intros s [<-|Hs]; [lra|apply E3, Hs].
        * destruct E4 as [->|(s & Hs & Es)]; [left; reflexivity|right; exists s; split; [right|]; assumption].
  Qed.

  Lemma vmaxinf_fold : forall l m, (forall t, In t l -> absf t = Fin (rf t)) -> 
    exists m', fold_left (fun s t => std_max earith s (absf t)) l (Fin m) = Fin m' /\
      m <= m' /\ (forall t, In t l -> rf t <= m') /\ (m' = m \/ exists t, In t l /\ rf t = m').
  Proof.
    induction l as [|t l IH]; intros m H.
    - exists m. cbn. split; [reflexivity|]. split; [lra|]. split; [intros t []|left; reflexivity].
    - cbn [fold_left]. rewrite (H t (or_introl eq_refl)). unfold std_max at 2. cbn [a_cmp earith].
      assert (Hl : forall s, In s l -> absf s = Fin (rf s)) by (intros s Hs; apply H; right; exact Hs).
      destruct (ltb ecmp (Fin m) (Fin (rf t))) eqn:E.
      + apply ltb_Fin in E. destruct (IH (rf t) Hl) as (m' & E1 & E2 & E3 & E4). exists m'. split; [exact E1|].
        split; [lra|]. split.
        * intros s [<-|Hs]; [exact E2|apply E3, Hs].
        * right. destruct E4 as [->|(s & Hs & Es)]; [exists t; split; [left|]; reflexivity|exists s; split; [right|]; assumption].
      + apply ltb_Fin_false in E. destruct (IH m Hl) as (m' & E1 & E2 & E3 & E4). exists m'. split; [exact E1|].
        split; [lra|]. split.
        * intros s [<-|Hs]; [lra|apply E3, Hs].
        * destruct E4 as [->|(s & Hs & Es)]; [left; reflexivity|right; exists s; split; [right|]; assumption].
  Qed.

  Lemma vsum_fold (f : T -> ER) (g : T -> R) : forall l a, (forall t, In t l -> f t = Fin (g t)) ->
    fold_left (fun s t => eadd s (f t)) l (Fin a) = Fin (a + rsum (map g l)).
  Proof.
    induction l as [|t l IH]; intros a H; cbn [fold_left map rsum]; [f_equal; ring|].
    rewrite (H t (or_introl eq_refl)). cbn [eadd]. rewrite IH by (intros s Hs; apply H; right; exact Hs). f_equal. ring.
  Qed.

  Lemma vnorm_unfold mx px sx (x : list T) order :
    view mx px sx x -> (Z.of_nat (length x) <= INT_MAX)%Z -> leb ecmp order (Fin 0) = false ->
    vnorm_core_calc earith etransc absf (Z.of_nat (length x)) mx px sx order =
      let mx := fold_left (fun maxabsx t => if gtb ecmp (absf t) maxabsx then absf t else maxabsx) x (Fin 0) in
      if eqb ecmp mx (Fin 0) then Some (Fin 0)
      else
        let s := fold_left (fun s t => if eisinf order then std_max earith s (absf t)
                  else if eqb ecmp order (Fin 1) then eadd s (absf t)
                  else eadd s (epow (ediv (absf t) mx) order)) x (Fin 0) in
        if eisinf order || eqb ecmp order (Fin 1) then Some s
        else Some (emul mx (epow s (ediv (Fin 1) order))).
  Proof.
    intros V Hn Ho. unfold vnorm_core_calc. cbn [a_cmp a_ofZ a_isinf a_add a_mul a_div a_nan earith t_pow etransc].
    rewrite Ho. unfold int_for_each. replace (Z.of_nat (length x) <=? INT_MAX)%Z with true by (symmetry; apply Z.leb_le; exact Hn).
    rewrite (for_each_fold mx px sx x _ (fun maxabsx t => if gtb ecmp (absf t) maxabsx then absf t else maxabsx) _ V).
    2:{ intros k s t _ Hg. rewrite Hg. reflexivity. }
    cbn [bind]. cbv zeta. set (mm := fold_left _ x (Fin 0)).
    destruct (eqb ecmp mm (Fin 0)); [reflexivity|].
    erewrite (for_each_fold mx px sx x _ (fun s t => if eisinf order then std_max earith s (absf t)
                  else if eqb ecmp order (Fin 1) then eadd s (absf t)
                  else eadd s (epow (ediv (absf t) mm) order)) _ V).
    2:{ intros k s t _ Hg. rewrite Hg. reflexivity. }
    cbn [bind]. destruct (_ || _); reflexivity.
  Qed.

  Lemma fold_left_ext' {X Y} (f g : X -> Y -> X) : forall l s, (forall s y, In y l -> f s y = g s y) -> fold_left f l s = fold_left g l s.
  Proof.
    induction l as [|y l IH]; intros s H; [reflexivity|]. cbn [fold_left]. rewrite H by (left; reflexivity).
    apply IH. intros s' y' Hy. apply H. right; exact Hy.
  Qed.

  Section Fin.
    Context (mx : mem T) (px sx : Z) (x : list T).
    Context (V : view mx px sx x) (Hn : (Z.of_nat (length x) <= INT_MAX)%Z).
    Context (H : forall t, In t x -> absf t = Fin (rf t) /\ 0 <= rf t).
    Lemma Habs : forall t, In t x -> absf t = Fin (rf t).
    Proof. intros t Ht. apply H, Ht. Qed.

    Theorem vnorm_finite p : 0 < p ->
      vnorm_core_calc earith etransc absf (Z.of_nat (length x)) mx px sx (Fin p) = Some (Fin (pnorm p (map rf x))).
    Proof.
      intros Hp. rewrite (vnorm_unfold mx px sx x (Fin p) V Hn) by (apply leb_Fin_false; lra).
      cbv zeta. destruct (vmax_fold x 0 Habs) as (M & EM & M0 & M1 & M2). rewrite EM. cbn [eisinf orb].
      destruct (Req_dec M 0) as [Z0|NZ].
      - rewrite (proj2 (eqb_Fin M 0) Z0). do 2 f_equal. symmetry. apply pnorm_zero; [exact Hp|].
        intros a Ha. apply in_map_iff in Ha. destruct Ha as (t & <- & Ht). specialize (M1 t Ht). destruct (H t Ht). lra.
      - rewrite (proj2 (eqb_Fin_false M 0) NZ). assert (MP : 0 < M) by lra.
        destruct (Req_dec p 1) as [->|N1].
        + rewrite (proj2 (eqb_Fin 1 1) eq_refl). f_equal.
          rewrite (vsum_fold absf rf x 0 Habs). f_equal. unfold pnorm.
          rewrite Rinv_1, map_map. rewrite (rsum_ext (fun t => rpow (rf t) 1) rf) by (intros t Ht; apply rpow_1, H, Ht).
          rewrite rpow_1; [ring|]. apply rsum_nonneg. intros a Ha. apply in_map_iff in Ha. destruct Ha as (t & <- & Ht). apply H, Ht.
        + rewrite (proj2 (eqb_Fin_false p 1) N1). f_equal.
          rewrite (fold_left_ext' _ (fun s t => eadd s (Fin (rpow (rf t / M) p)))).
          2:{ intros s t Ht. destruct (H t Ht) as [E1 E2]. rewrite E1, ediv_Fin by exact NZ. f_equal.
              unfold epow. rewrite Rcompare_Gt by exact Hp.
              destruct (Req_dec (rf t) 0) as [Z1|NZ1].
              - rewrite Z1. unfold Rdiv. rewrite Rmult_0_l, Rcompare_Eq, rpow_0 by reflexivity. reflexivity.
              - assert (Q : 0 < rf t / M) by (apply Rdiv_lt_0_compat; lra).
                rewrite Rcompare_Gt by exact Q. rewrite rpow_pos by lra. reflexivity. }
          rewrite (vsum_fold (fun t => Fin (rpow (rf t / M) p)) (fun t => rpow (rf t / M) p)) by reflexivity.
          rewrite Rplus_0_l, ediv_Fin by lra.
          set (S := rsum (map (fun t => rpow (rf t / M) p) x)).
          assert (SP : 0 < S).
          { destruct M2 as [C|(t & Ht & Et)]; [lra|]. unfold S.
            assert (NN : forall a, In a (map (fun t => rpow (rf t / M) p) x) -> 0 <= a).
            { intros a Ha. apply in_map_iff in Ha. destruct Ha as (u & <- & _). apply rpow_nonneg. }
            destruct (rsum_nonneg _ NN) as [G|G]; [exact G|]. exfalso.
            assert (K : rpow (rf t / M) p = 0).
            { apply (rsum_zero _ NN (eq_sym G)). apply in_map_iff. exists t. split; [reflexivity|exact Ht]. }
            apply rpow_zero in K. rewrite Et in K. unfold Rdiv in K. rewrite Rinv_r in K by exact NZ. lra. }
          unfold epow. rewrite Rcompare_Gt by (apply Rdiv_lt_0_compat; lra). rewrite Rcompare_Gt by exact SP.
          cbn [emul]. f_equal. unfold Rdiv. rewrite Rmult_1_l. rewrite <- rpow_pos by lra.
          fold (pnorm p (map (fun t => rf t / M) x)).
          replace S with (rsum (map (fun a => rpow a p) (map (fun t => rf t / M) x))) by (rewrite map_map; reflexivity).
          fold (pnorm p (map (fun t => rf t / M) x)).
          rewrite <- pnorm_scale; [|exact Hp|lra|].
          * f_equal. rewrite map_map. apply map_ext. intros t. field. exact NZ.
          * intros a Ha. apply in_map_iff in Ha. destruct Ha as (t & <- & Ht). destruct (H t Ht).
            apply Rmult_le_pos; [assumption|]. left. apply Rinv_0_lt_compat, MP.
    Qed.

    Theorem vnorm_inf :
      exists m, vnorm_core_calc earith etransc absf (Z.of_nat (length x)) mx px sx PInf = Some (Fin m) /\
        (x = [] -> m = 0) /\ (x <> [] -> is_max (map rf x) m).
    Proof.
      rewrite (vnorm_unfold mx px sx x PInf V Hn) by reflexivity. cbv zeta.
      destruct (vmax_fold x 0 Habs) as (M & EM & M0 & M1 & M2). rewrite EM. cbn [eisinf orb].
      destruct (Req_dec M 0) as [Z0|NZ].
      - rewrite (proj2 (eqb_Fin M 0) Z0). exists 0. split; [reflexivity|]. split; [reflexivity|].
        intros Hx. split.
        + destruct x as [|t0 x0]; [congruence|]. left. specialize (M1 t0 (or_introl eq_refl)).
          destruct (H t0 (or_introl eq_refl)). cbn [map]. lra.
        + intros a Ha. apply in_map_iff in Ha. destruct Ha as (t & <- & Ht). specialize (M1 t Ht). lra.
      - rewrite (proj2 (eqb_Fin_false M 0) NZ).
        destruct (vmaxinf_fold x 0 Habs) as (m & Em & m0 & m1 & m2). rewrite Em.
        exists m. split; [reflexivity|].
        assert (N0 : 0 < m).
        { destruct M2 as [C|(t & Ht & Et)]; [lra|]. specialize (m1 t Ht). lra. }
        split.
        + intros ->. destruct m2 as [->|(t & [] & _)]. reflexivity.
        + intros Hx. split.
          * destruct m2 as [C|(t & Ht & Et)]; [lra|]. apply in_map_iff. exists t. split; assumption.
          * intros a Ha. apply in_map_iff in Ha. destruct Ha as (t & <- & Ht). apply m1, Ht.
    Qed.
  End Fin.

  (** an infinite element with a finite order other than 1 *)
  Theorem vnorm_infinite_element mx px sx x p :
    view mx px sx x -> (Z.of_nat (length x) <= INT_MAX)%Z -> 0 < p -> p <> 1 ->
    (forall t, In t x -> absf t = PInf \/ exists r, absf t = Fin r /\ 0 <= r) ->
    (exists t, In t x /\ absf t = PInf) ->
    vnorm_core_calc earith etransc absf (Z.of_nat (length x)) mx px sx (Fin p) = Some ENaN.
  Proof.
    intros V Hn Hp N1 H (t & Ht & Et).
    rewrite (vnorm_unfold mx px sx x (Fin p) V Hn) by (apply leb_Fin_false; lra). cbv zeta.
    assert (EM : forall l m, (forall t, In t l -> absf t = PInf \/ exists r, absf t = Fin r /\ 0 <= r) ->
       (m = PInf \/ (exists r, m = Fin r) /\ In t l) ->
       fold_left (fun maxabsx t => if gtb ecmp (absf t) maxabsx then absf t else maxabsx) l m = PInf).
    { induction l as [|u l IH]; intros m Hl Hm; cbn [fold_left].
      - destruct Hm as [Hm|[_ []]]. exact Hm.
      - apply IH; [intros v Hv; apply Hl; right; exact Hv|].
        destruct Hm as [->|[(r & ->) Hin]].
        + left. destruct (Hl u (or_introl eq_refl)) as [->|(r & -> & _)]; reflexivity.
        + destruct Hin as [->|Hin].
          * left. rewrite Et. reflexivity.
          * destruct (Hl u (or_introl eq_refl)) as [E|(r' & E & _)]; rewrite E.
            -- left. reflexivity.
            -- right. split; [|exact Hin]. destruct (gtb _ _ _); eexists; reflexivity. }
    rewrite (EM x (Fin 0) H) by (right; split; [eexists; reflexivity|exact Ht]).
    cbn [eisinf orb]. change (eqb ecmp PInf (Fin 0)) with false. cbv iota.
    rewrite (proj2 (eqb_Fin_false p 1) N1). do 1 f_equal.
    assert (ES : forall l s, In t l -> fold_left (fun s t => eadd s (epow (ediv (absf t) PInf) (Fin p))) l s = ENaN).
    { assert (EN : forall l, fold_left (fun s t => eadd s (epow (ediv (absf t) PInf) (Fin p))) l ENaN = ENaN).
      { induction l as [|u l IH]; [reflexivity|]. cbn [fold_left eadd]. exact IH. }
      induction l as [|u l IH]; intros s Hin; [destruct Hin|]. cbn [fold_left]. destruct Hin as [->|Hin].
      - rewrite Et. cbn [ediv].
        assert (EP : epow ENaN (Fin p) = ENaN) by (unfold epow; rewrite Rcompare_Gt by exact Hp; reflexivity).
        rewrite EP. replace (eadd s ENaN) with ENaN by (destruct s; reflexivity). apply EN.
      - apply IH, Hin. }
    rewrite ES by exact Ht. rewrite ediv_Fin by lra. unfold epow.
    rewrite Rcompare_Gt by (apply Rdiv_lt_0_compat; lra). reflexivity.
  Qed.
End Vnorm.

(** order <= 0 (or -inf): NaN, in every arithmetic *)
Theorem vnorm_bad_order {T U} (A : arith U) TR (absf : T -> U) n mx px sx order :
  leb (a_cmp A) order (a_ofZ A 0) = true ->
  vnorm_core_calc A TR absf n mx px sx order = Some (a_nan A).
Proof. intros H. unfold vnorm_core_calc. rewrite H. reflexivity. Qed.

(** the maximum norm in IEEE arithmetic: exact *)
Section VnormF.
  Context (prec emax : Z) (Hp : Prec_gt_0 prec) (He : Prec_lt_emax prec emax).
  Notation F := (binary_float prec emax).
  Notation FA := (farith prec emax Hp He).
  Context (TR : transc F) {T : Type} (absf : T -> F).

  Lemma max_fold_f (pick : F -> T -> F) :
    (forall m t, is_nan (absf t) = false -> is_nan m = false ->
       pick m t = if ltb (a_cmp FA) m (absf t) then absf t else m) ->
    forall l m, is_nan m = false -> (forall t, In t l -> is_nan (absf t) = false) ->
    let m' := fold_left pick l m in
    is_nan m' = false /\ leb (a_cmp FA) m m' = true /\ (forall t, In t l -> leb (a_cmp FA) (absf t) m' = true) /\
    (m' = m \/ exists t, In t l /\ absf t = m').
  Proof.
    intros HPk. pose proof (Bcompare_laws prec emax) as L. change (a_cmp FA) with (@Bcompare prec emax) in *.
    assert (NN : forall v : F, isnanb (@Bcompare prec emax) v = is_nan v) by (intros; apply isnan_f).
    induction l as [|t l IH]; intros m Hm H m'.
    - cbn in m'. subst m'. split; [exact Hm|]. split; [apply (leb_refl _ L); rewrite NN; exact Hm|].
      split; [intros t []|left; reflexivity].
    - cbn [fold_left] in m'. pose proof (H t (or_introl eq_refl)) as Ht.
      assert (Hl : forall s, In s l -> is_nan (absf s) = false) by (intros s Hs; apply H; right; exact Hs).
      unfold m'. rewrite (HPk m t Ht Hm). destruct (ltb (@Bcompare prec emax) m (absf t)) eqn:E.
      + destruct (IH (absf t) Ht Hl) as (E1 & E2 & E3 & E4). split; [exact E1|]. split; [|split].
        * apply (leb_trans _ L m (absf t)); [apply ltb_leb; exact E|exact E2].
        * intros s [<-|Hs]; [exact E2|apply E3, Hs].
        * right. destruct E4 as [->|(s & Hs & Es)]; [exists t; split; [left|]; reflexivity|exists s; split; [right|]; assumption].
      + destruct (IH m Hm Hl) as (E1 & E2 & E3 & E4). split; [exact E1|]. split; [exact E2|]. split.
        * intros s [<-|Hs]; [|apply E3, Hs].
          apply (leb_trans _ L (absf t) m); [|exact E2]. apply (not_lt_le _ L); [rewrite NN; exact Hm|rewrite NN; exact Ht|exact E].
        * destruct E4 as [->|(s & Hs & Es)]; [left; reflexivity|right; exists s; split; [right|]; assumption].
  Qed.

  Theorem vnorm_inf_ieee mx px sx (x : list T) :
    view mx px sx x -> (Z.of_nat (length x) <= INT_MAX)%Z -> x <> [] ->
    (forall t, In t x -> is_nan (absf t) = false /\ leb Bcompare (a_ofZ FA 0) (absf t) = true) ->
    exists v, vnorm_core_calc FA TR absf (Z.of_nat (length x)) mx px sx (B754_infinity false) = Some v /\
      (exists t, In t x /\ eqb Bcompare (absf t) v = true) /\ forall t, In t x -> leb Bcompare (absf t) v = true.
  Proof.
    intros V Hn Hx H. pose proof (Bcompare_laws prec emax) as L.
    assert (NN : forall v : F, isnanb (@Bcompare prec emax) v = is_nan v) by (intros; apply isnan_f).
    pose proof (ofZ_0 prec emax Hp He) as Z0.
    assert (N0 : is_nan (a_ofZ FA 0) = false).
    { destruct (fin_of prec emax _ _ Z0) as [Fz _]. destruct (a_ofZ FA 0); try discriminate; reflexivity. }
    unfold vnorm_core_calc.
    assert (Ho : leb (a_cmp FA) (B754_infinity false) (a_ofZ FA 0) = false).
    { cbn [a_cmp farith]. rewrite leb_f. unfold binary_normalize. change (a_ofZ FA 0) with (a_ofZ FA 0). rewrite Z0. reflexivity. }
    rewrite Ho. unfold int_for_each. replace (Z.of_nat (length x) <=? INT_MAX)%Z with true by (symmetry; apply Z.leb_le; exact Hn).
    rewrite (for_each_fold mx px sx x _ (fun maxabsx t => if gtb (a_cmp FA) (absf t) maxabsx then absf t else maxabsx) _ V).
    2:{ intros k s t _ Hg. rewrite Hg. reflexivity. }
    cbn [bind].
    destruct (max_fold_f (fun maxabsx t => if gtb (a_cmp FA) (absf t) maxabsx then absf t else maxabsx)) with (l := x) (m := a_ofZ FA 0)
      as (E1 & E2 & E3 & E4); [|exact N0|intros t Ht; apply H, Ht|].
    { intros m t Ht Hm. rewrite gtb_ltb by exact L. reflexivity. }
    set (mm := fold_left _ x (a_ofZ FA 0)) in *.
    destruct (eqb (a_cmp FA) mm (a_ofZ FA 0)) eqn:Em.
    - exists (a_ofZ FA 0). split; [reflexivity|]. cbn [a_cmp farith] in Em, E2, E3.
      assert (K : forall t, In t x -> leb Bcompare (absf t) (a_ofZ FA 0) = true).
      { intros t Ht. apply (leb_trans _ L (absf t) mm); [apply E3, Ht|]. apply eqb_leb. exact Em. }
      split; [|exact K]. destruct x as [|t0 x0]; [congruence|]. exists t0. split; [left; reflexivity|].
      apply (le_antisym _ L); [apply K; left; reflexivity|apply H; left; reflexivity].
    - erewrite (for_each_fold mx px sx x _ (fun s t => std_max FA s (absf t)) _ V).
      2:{ intros k s t _ Hg. rewrite Hg. reflexivity. }
      cbn [bind a_isinf farith fisinf orb ret]. eexists. split; [reflexivity|].
      destruct (max_fold_f (fun s t => std_max FA s (absf t))) with (l := x) (m := a_ofZ FA 0)
        as (D1 & D2 & D3 & D4); [reflexivity|exact N0|intros t Ht; apply H, Ht|].
      cbn [a_cmp farith] in *. split; [|exact D3].
      destruct D4 as [D4|(t & Ht & Et)].
      + destruct x as [|t0 x0]; [congruence|]. exists t0. split; [left; reflexivity|].
        change (binary_normalize prec emax Hp He mode_NE 0 0 false) with (a_ofZ FA 0) in *. rewrite D4.
        apply (le_antisym _ L); [rewrite <- D4; apply D3; left; reflexivity|apply H; left; reflexivity].
      + exists t. split; [exact Ht|]. rewrite Et. apply (le_antisym _ L); apply (leb_refl _ L); rewrite NN; exact D1.
  Qed.
End VnormF.

(** ** rms *)
Section Rms.
  Context {T : Type} (A : arith T).
  Local Notation fsumsq := (fsumsq A).

  Theorem rms_fold sz mx px sx (x : list T) : view mx px sx x ->
    rms_core_calc A sz (Z.of_nat (length x)) mx px sx
      = Some (a_sqrt A (a_div A (fsumsq x) (a_ofZ A (Z.of_nat (length x))))).
  Proof.
    intros V. unfold rms_core_calc.
    assert (E : (if (sx =? sz)%Z then rms_core_contig A sz (Z.of_nat (length x)) mx px else ret (a_ofZ A 0)) <> None).
    { destruct (Z.eqb_spec sx sz) as [->|]; [|discriminate]. unfold rms_core_contig.
      rewrite (for_each_fold mx px sz x _ (fun s x => a_add A s (a_mul A x x)) _ V).
      - discriminate.
      - intros k s a _ Hg. unfold get in Hg. rewrite Hg. reflexivity. }
    destruct (if (sx =? sz)%Z then _ else _); [|congruence]. cbn [bind].
    rewrite (for_each_fold mx px sx x _ (fun s x => a_add A s (a_mul A x x)) _ V).
    - reflexivity.
    - intros k s a _ Hg. rewrite Hg. reflexivity.
  Qed.

  Local Notation cfsumsq := (cfsumsq A).

  Theorem crms_fold sz mx px sx (z : list (T * T)) : cview mx px sx sz z ->
    crms_core_calc A sz (Z.of_nat (length z)) mx px sx
      = Some (a_sqrt A (a_div A (cfsumsq z) (a_ofZ A (Z.of_nat (length z))))).
  Proof.
    intros V. unfold crms_core_calc.
    assert (G : forall body, (forall k s q, nth_error z k = Some q -> body (Z.of_nat k) s =
        Some (a_add A s (a_add A (a_mul A (fst q) (fst q)) (a_mul A (snd q) (snd q))))) ->
       for_each 0 (Z.of_nat (length z)) body (a_ofZ A 0) = Some (cfsumsq z)).
    { intros body Hb. rewrite (for_each_list z body (fun k q s => Some (a_add A s (a_add A (a_mul A (fst q) (fst q)) (a_mul A (snd q) (snd q))))) _ Hb).
      rewrite (liter_foldi (fun _ s q => a_add A s (a_add A (a_mul A (fst q) (fst q)) (a_mul A (snd q) (snd q))))).
      rewrite foldi_fold. reflexivity. }
    destruct (Z.eqb_spec sx (2 * sz)) as [->|].
    - unfold crms_core_contig. rewrite G; [reflexivity|].
      intros k s q Hk. destruct (V k q Hk) as [V1 V2]. unfold load.
      replace (px + 2 * Z.of_nat k * sz)%Z with (px + Z.of_nat k * (2 * sz))%Z by ring.
      replace (px + (2 * Z.of_nat k + 1) * sz)%Z with (px + Z.of_nat k * (2 * sz) + sz)%Z by ring.
      rewrite V1, V2. reflexivity.
    - rewrite G; [reflexivity|].
      intros k s q Hk. destruct (V k q Hk) as [V1 V2]. unfold load. rewrite V1, V2. reflexivity.
  Qed.
End Rms.

Theorem rms_exact sz mx px sx x : view mx px sx (map Fin x) -> x <> [] ->
  rms_core_calc earith sz (Z.of_nat (length x)) mx px sx = Some (Fin (sqrt (rsumsq x / INR (length x)))).
Proof.
  intros V Hx. rewrite <- (map_length Fin x), (rms_fold earith sz mx px sx _ V). unfold fsumsq. f_equal.
  pose proof (INR_len_pos x Hx) as P.
  cbn [a_add a_mul a_ofZ earith]. rewrite (vsum_fold (fun t => emul t t) (fun t => match t with Fin r => r * r | _ => 0 end)).
  - rewrite Rplus_0_l, map_map, map_length. cbn [a_div a_sqrt earith].
    rewrite <- INR_IZR_INZ, ediv_Fin by lra. rewrite esqrt_Fin; [reflexivity|].
    apply Rmult_le_pos; [|left; apply Rinv_0_lt_compat; exact P].
    apply rsum_nonneg. intros a Ha. apply in_map_iff in Ha. destruct Ha as (t & <- & _). apply Rle_0_sqr.
  - intros t Ht. apply in_map_iff in Ht. destruct Ht as (r & <- & _). reflexivity.
Qed.

Theorem crms_exact sz mx px sx (z : list (R * R)) : 
  cview mx px sx sz (map (fun q => (Fin (fst q), Fin (snd q))) z) -> z <> [] ->
  crms_core_calc earith sz (Z.of_nat (length z)) mx px sx
    = Some (Fin (sqrt (rsum (map (fun q => fst q * fst q + snd q * snd q) z) / INR (length z)))).
Proof.
  intros V Hx. rewrite <- (map_length (fun q => (Fin (fst q), Fin (snd q))) z), (crms_fold earith sz mx px sx _ V). unfold cfsumsq. f_equal.
  pose proof (INR_len_pos z Hx) as P. rewrite map_length. cbn [a_add a_mul a_ofZ earith].
  rewrite (vsum_fold (fun t => eadd (emul (fst t) (fst t)) (emul (snd t) (snd t)))
      (fun t => match t with (Fin a, Fin b) => a * a + b * b | _ => 0 end)).
  - rewrite Rplus_0_l, map_map. cbn [a_div a_sqrt earith].
    rewrite <- INR_IZR_INZ, ediv_Fin by lra. rewrite esqrt_Fin; [reflexivity|].
    apply Rmult_le_pos; [|left; apply Rinv_0_lt_compat; exact P].
    apply rsum_nonneg. intros a Ha. apply in_map_iff in Ha. destruct Ha as (t & <- & _).
    apply Rplus_le_le_0_compat; apply Rle_0_sqr.
  - intros t Ht. apply in_map_iff in Ht. destruct Ht as (r & <- & _). reflexivity.
Qed.

Theorem rms_ieee_empty prec emax Hp He sz mx px sx :
  rms_core_calc (farith prec emax Hp He) sz 0 mx px sx = Some B754_nan.
Proof.
  assert (E : a_div (farith prec emax Hp He) (a_ofZ (farith prec emax Hp He) 0) (a_ofZ (farith prec emax Hp He) 0) = B754_nan).
  { reflexivity. }
  assert (V : view mx px sx []) by (intros k Hk; cbn in Hk; lia).
  pose proof (rms_fold (farith prec emax Hp He) sz mx px sx [] V) as K. cbn [length Z.of_nat] in K. rewrite K.
  unfold fsumsq. cbn [fold_left]. rewrite E. reflexivity.
Qed.

(** ** vdot *)
Section Vdot.
  Context {T : Type} (A : arith T).
  Local Notation fdot := (fdot A).

  Theorem vdot_fold sz mx px sx my py sy (x y : list T) :
    view mx px sx x -> view my py sy y -> length y = length x -> (Z.of_nat (length x) <= INT_MAX)%Z ->
    vdot_core_calc A sz (Z.of_nat (length x)) mx px sx my py sy = Some (fdot x y).
  Proof.
    intros V V' EL Hn. unfold vdot_core_calc, int_for_each.
    replace (Z.of_nat (length x) <=? INT_MAX)%Z with true by (symmetry; apply Z.leb_le; exact Hn).
    destruct (Z.eqb_spec sx sz) as [->|]; [destruct (Z.eqb_spec sy sz) as [->|]|]; cbn [andb];
    (rewrite (for_each_fold2 mx px _ x my py _ y _ (fun s q => a_add A s (a_mul A (fst q) (snd q))) _ V V' EL);
     [reflexivity|intros k s a b _ Ha Hb; unfold get in *; rewrite Ha, Hb; reflexivity]).
  Qed.
End Vdot.

Theorem vdot_exact sz mx px sx my py sy x y :
  view mx px sx (map Fin x) -> view my py sy (map Fin y) -> length y = length x -> (Z.of_nat (length x) <= INT_MAX)%Z ->
  vdot_core_calc earith sz (Z.of_nat (length x)) mx px sx my py sy = Some (Fin (rdot x y)).
Proof.
  intros V V' EL Hn. pose proof (vdot_fold earith sz mx px sx my py sy _ _ V V') as K. rewrite !map_length in K.
  rewrite (K EL Hn). f_equal. unfold fdot. cbn [a_add a_mul a_ofZ earith].
  rewrite (vsum_fold (fun q => emul (fst q) (snd q)) (fun t => match t with (Fin a, Fin b) => a * b | _ => 0 end)).
  - rewrite Rplus_0_l. f_equal. unfold rdot. clear. revert y. induction x as [|a x IH]; intros [|b y]; try reflexivity.
    cbn [map combine rsum fst snd]. rewrite IH. reflexivity.
  - intros [a b] Hq. pose proof (in_combine_l _ _ _ _ Hq) as Ha. pose proof (in_combine_r _ _ _ _ Hq) as Hb.
    apply in_map_iff in Ha. apply in_map_iff in Hb. destruct Ha as (ra & <- & _). destruct Hb as (rb & <- & _). reflexivity.
Qed.

Lemma rdot_sym x y : rdot x y = rdot y x.
Proof.
  unfold rdot. revert y. induction x as [|a x IH]; intros [|b y]; try reflexivity.
  cbn [combine map rsum fst snd]. rewrite IH. ring.
Qed.
Lemma rdot_lin a b x x' y : length x = length y -> length x' = length y ->
  rdot (map (fun q => a * fst q + b * snd q) (combine x x')) y = a * rdot x y + b * rdot x' y.
Proof.
  unfold rdot. revert x' y. induction x as [|p x IH]; intros [|q x'] [|r y] E1 E2; try discriminate; try (cbn; ring).
  cbn [combine map rsum fst snd] in *. rewrite IH by (cbn in E1, E2; lia). ring.
Qed.

Section VdotF.
  Context (prec emax : Z) (Hp : Prec_gt_0 prec) (He : Prec_lt_emax prec emax).
  Notation F := (binary_float prec emax).
  Notation FA := (farith prec emax Hp He).
  Lemma Bmult_comm (x y : F) : Bmult mode_NE x y = Bmult mode_NE y x.
  Proof.
    destruct x as [sx|sx| |sx mx ex Hx], y as [sy|sy| |sy my ey Hy]; cbn [Bmult]; try reflexivity;
      try (f_equal; apply xorb_comm).
    apply B2SF_inj. rewrite !B2SF_SF2B. rewrite xorb_comm, Pos.mul_comm, Z.add_comm. reflexivity.
  Qed.
  Theorem vdot_sym_ieee sz mx px sx my py sy (x y : list F) :
    view mx px sx x -> view my py sy y -> length y = length x ->
    vdot_core_calc FA sz (Z.of_nat (length x)) mx px sx my py sy =
    vdot_core_calc FA sz (Z.of_nat (length x)) my py sy mx px sx.
  Proof.
    intros V V' EL. destruct (Z_le_gt_dec (Z.of_nat (length x)) INT_MAX) as [Hn|Hn].
    - rewrite (vdot_fold FA sz mx px sx my py sy x y V V' EL Hn).
      rewrite <- EL in *. rewrite (vdot_fold FA sz my py sy mx px sx y x V' V (eq_sym EL) Hn). f_equal.
      unfold fdot. generalize (a_ofZ FA 0). clear. revert y. induction x as [|a x IH]; intros [|b y] s; try reflexivity.
      cbn [combine fold_left fst snd]. rewrite IH. cbn [a_mul farith]. rewrite Bmult_comm. reflexivity.
    - unfold vdot_core_calc, int_for_each.
      replace (Z.of_nat (length x) <=? INT_MAX)%Z with false by (symmetry; apply Z.leb_gt; lia).
      destruct (_ && _), (_ && _); reflexivity.
  Qed.
End VdotF.
