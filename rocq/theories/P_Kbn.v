(** Proofs about kbnsum. *)
From Coq Require Import ZArith Reals List Bool Lia Lra.
From Flocq Require Import Core BinarySingleNaN Plus_error Relative.
From Flocq.Pff Require Import Pff2Flocq.
From Verif Require Import CSem CSemP FoldP Num NumP NumF M_Stat S_Stat.
Import ListNotations.
Open Scope R_scope.

Lemma rsum_app l1 l2 : rsum (l1 ++ l2) = rsum l1 + rsum l2.
Proof. induction l1 as [|a l1 IH]; cbn [app rsum]; [ring|]. rewrite IH. ring. Qed.

(** ** finite data: the loop is a fold of the summer *)
Section Fold.
  Context {T : Type} (A : arith T).
  Local Notation isnan := (isnanb (a_cmp A)).

  Lemma kbn_lloop_finite (mx : mem T) px sz n : forall l k st,
    (forall v, In v l -> isnan v = false /\ a_isinf A v = false) ->
    lloop k l
      (fun k xk st =>
         if isnan xk then ret (Ret xk)
         else if a_isinf A xk then
           bind (for_loop (k + 1) n
             (fun j (_ : unit) =>
                bind (load mx (px + j * sz)%Z) (fun y =>
                ret (if isnan (a_add A xk y) then @Ret unit T (a_nan A) else Next tt))) tt)
           (fun r => ret (match r with inr v => Ret v | inl _ => Ret xk end))
         else ret (Next (kbn_add A st xk))) st = Some (inl (fold_left (kbn_add A) l st)).
  Proof.
    induction l as [|x l IH]; intros k st H; [reflexivity|].
    cbn [lloop]. destruct (H x (or_introl eq_refl)) as [H1 H2]. rewrite H1, H2. cbn [ret].
    cbn [fold_left]. apply IH. intros v Hv. apply H. right. exact Hv.
  Qed.

  Lemma kbnsum_finite_fold sz mx px sx x :
    view mx px sx x -> (forall v, In v x -> isnan v = false /\ a_isinf A v = false) ->
    kbnsum_core_calc A sz (Z.of_nat (length x)) mx px sx
      = Some (kbn_sum A (fold_left (kbn_add A) x (kbn_zero A))).
  Proof.
    intros V H. unfold kbnsum_core_calc.
    rewrite (for_loop_view mx px sx x _
      (fun k xk st =>
         if isnan xk then ret (Ret xk)
         else if a_isinf A xk then
           bind (for_loop (k + 1) (Z.of_nat (length x))
             (fun j (_ : unit) =>
                bind (load mx (px + j * sz)%Z) (fun y =>
                ret (if isnan (a_add A xk y) then @Ret unit T (a_nan A) else Next tt))) tt)
           (fun r => ret (match r with inr v => Ret v | inl _ => Ret xk end))
         else ret (Next (kbn_add A st xk))) (kbn_zero A) V).
    - rewrite kbn_lloop_finite by exact H. reflexivity.
    - intros k s v Hk Hg. rewrite Hg. reflexivity.
  Qed.
End Fold.

(** ** exact arithmetic *)
Lemma kbn_fold_exact : forall l a,
  fold_left (kbn_add earith) (map Fin l) (Fin a, Fin 0) = (Fin (a + rsum l), Fin 0).
Proof.
  induction l as [|x l IH]; intros a; cbn [map fold_left rsum].
  - do 3 f_equal. ring.
  - assert (E : kbn_add earith (Fin a, Fin 0) (Fin x) = (Fin (a + x), Fin 0)).
    { unfold kbn_add. cbn [a_add a_sub a_abs earith esub eadd eopp].
      destruct (geb _ _ _); apply f_equal2; try reflexivity; f_equal; ring. }
    rewrite E, IH. do 2 f_equal. ring.
Qed.

Theorem kbnsum_exact sz mx px sx x :
  view mx px sx (map Fin x) ->
  kbnsum_core_calc earith sz (Z.of_nat (length x)) mx px sx = Some (Fin (rsum x)).
Proof.
  intros V. rewrite <- (map_length Fin x). rewrite kbnsum_finite_fold; [|exact V|].
  - unfold kbn_zero. cbn [a_ofZ earith]. rewrite kbn_fold_exact. cbn [kbn_sum fst snd a_add earith eadd].
    unfold kbn_sum. cbn [fst snd a_add earith eadd]. do 2 f_equal. ring.
  - intros v Hv. apply in_map_iff in Hv. destruct Hv as (r & <- & _). split; [apply isnanb_Fin|reflexivity].
Qed.

(** ** IEEE arithmetic *)
Section IEEE.
  Context (prec emax : Z).
  Context (Hp : Prec_gt_0 prec) (He : Prec_lt_emax prec emax).
  Context (Hp1 : (1 < prec)%Z).
  Notation F := (binary_float prec emax).
  Notation FA := (farith prec emax Hp He).
  Notation rnd := (rnd prec emax).
  Notation frnd := (frnd prec emax).
  Notation emin := (3 - emax - prec)%Z.

  Lemma plus_fin (x y : F) : is_finite (a_add FA x y) = true ->
    is_finite x = true /\ is_finite y = true /\ B2R (a_add FA x y) = rnd (B2R x + B2R y).
  Proof.
    intros H. cbn [a_add farith] in *.
    assert (FX : is_finite x = true) by (destruct x as [[]|[]| |s m e Hm]; destruct y as [[]|[]| |s' m' e' Hm']; cbn in H; congruence || reflexivity).
    assert (FY : is_finite y = true) by (destruct x as [[]|[]| |s m e Hm]; destruct y as [[]|[]| |s' m' e' Hm']; cbn in H; congruence || reflexivity).
    split; [exact FX|]. split; [exact FY|].
    pose proof (f2e_plus prec emax Hp He x y FX FY) as E. rewrite f2e_finite in E by exact H.
    unfold NumF.frnd in E. destruct (Rlt_bool _ _); [injection E as E; exact E|].
    destruct (Rlt_bool _ _); discriminate.
  Qed.

  Lemma minus_fin (x y : F) : is_finite (a_sub FA x y) = true ->
    is_finite x = true /\ is_finite y = true /\ B2R (a_sub FA x y) = rnd (B2R x - B2R y).
  Proof.
    intros H. cbn [a_sub farith] in *.
    assert (FX : is_finite x = true) by (destruct x as [[]|[]| |s m e Hm]; destruct y as [[]|[]| |s' m' e' Hm']; cbn in H; congruence || reflexivity).
    assert (FY : is_finite y = true) by (destruct x as [[]|[]| |s m e Hm]; destruct y as [[]|[]| |s' m' e' Hm']; cbn in H; congruence || reflexivity).
    split; [exact FX|]. split; [exact FY|].
    pose proof (f2e_minus prec emax Hp He x y FX FY) as E. rewrite f2e_finite in E by exact H.
    unfold NumF.frnd in E. destruct (Rlt_bool _ _); [injection E as E; exact E|].
    destruct (Rlt_bool _ _); discriminate.
  Qed.

  Lemma choice_sym (x : Z) : negb (Z.even x) = negb (negb (Z.even (- (x + 1)))).
  Proof. rewrite Z.even_opp, Z.even_add. destruct (Z.even x); reflexivity. Qed.

  Lemma emin_le : (emin <= 0)%Z.
  Proof. unfold Prec_gt_0 in Hp. unfold Prec_lt_emax in He. lia. Qed.

  Lemma fmt (x : F) : generic_format radix2 (FLT_exp emin prec) (B2R x).
  Proof. apply (generic_format_B2R prec emax x). Qed.

  (** the compensation term computed by the summer *)
  Definition kbn_err (acc x : F) : F :=
    if geb (a_cmp FA) (a_abs FA acc) (a_abs FA x)
    then a_add FA (a_sub FA acc (a_add FA acc x)) x
    else a_add FA (a_sub FA x (a_add FA acc x)) acc.

  Lemma kbn_add_err acc c x : kbn_add FA (acc, c) x = (a_add FA acc x, a_add FA c (kbn_err acc x)).
  Proof. unfold kbn_add, kbn_err. destruct (geb _ _ _); reflexivity. Qed.

  Lemma Babs_B2R (x : F) : B2R (Babs x) = Rabs (B2R x).
  Proof. apply B2R_Babs. Qed.

  Lemma kbn_err_exact acc x :
    is_finite (a_add FA acc x) = true -> is_finite (kbn_err acc x) = true ->
    B2R (a_add FA acc x) + B2R (kbn_err acc x) = B2R acc + B2R x.
  Proof.
    intros Ft Fe. destruct (plus_fin acc x Ft) as (Fa & Fx & Et).
    unfold kbn_err in *.
    assert (EG : geb (a_cmp FA) (a_abs FA acc) (a_abs FA x) = true <-> Rabs (B2R x) <= Rabs (B2R acc)).
    { cbn [a_cmp a_abs farith]. rewrite geb_f. rewrite !f2e_finite by (rewrite is_finite_Babs; assumption).
      rewrite geb_Fin, !Babs_B2R. lra. }
    destruct (geb (a_cmp FA) (a_abs FA acc) (a_abs FA x)) eqn:G.
    - destruct (plus_fin _ _ Fe) as (Fd & _ & Ee). destruct (minus_fin _ _ Fd) as (_ & _ & Ed).
      rewrite Ee, Ed, Et. rewrite (Rplus_comm (NumF.rnd _ _ _) (B2R x)).
      apply (Fast2Sum_correct emin prec (fun x => negb (Z.even x)) Hp1 emin_le choice_sym (B2R acc) (B2R x) (fmt acc) (fmt x)).
      apply EG. reflexivity.
    - destruct (plus_fin _ _ Fe) as (Fd & _ & Ee). destruct (minus_fin _ _ Fd) as (_ & _ & Ed).
      rewrite Ee, Ed, Et. rewrite (Rplus_comm (NumF.rnd prec emax (B2R x - _)) (B2R acc)).
      rewrite (Rplus_comm (B2R acc) (B2R x)).
      apply (Fast2Sum_correct emin prec (fun x => negb (Z.even x)) Hp1 emin_le choice_sym (B2R x) (B2R acc) (fmt x) (fmt acc)).
      destruct (Rle_or_lt (Rabs (B2R x)) (Rabs (B2R acc))) as [K|K]; [apply EG in K; discriminate|lra].
  Qed.

  (** the list of compensation terms *)
  Fixpoint kbn_errs (acc : F) (l : list F) : list F :=
    match l with [] => [] | x :: l' => kbn_err acc x :: kbn_errs (a_add FA acc x) l' end.

  Lemma kbn_fold_errs : forall l acc c,
    fold_left (kbn_add FA) l (acc, c)
    = (fold_left (a_add FA) l acc, fold_left (a_add FA) (kbn_errs acc l) c).
  Proof.
    induction l as [|x l IH]; intros acc c; [reflexivity|].
    cbn [fold_left kbn_errs]. rewrite kbn_add_err. apply IH.
  Qed.

  Lemma fold_add_fin : forall l (a : F), is_finite (fold_left (a_add FA) l a) = true ->
    is_finite a = true /\ forall v, In v l -> is_finite v = true.
  Proof.
    induction l as [|x l IH]; intros a H; cbn [fold_left] in H; [split; [exact H|intros v []]|].
    destruct (IH _ H) as [H1 H2]. destruct (plus_fin a x H1) as (Fa & Fx & _).
    split; [exact Fa|]. intros v [<-|Hv]; [exact Fx|exact (H2 v Hv)].
  Qed.

  Lemma kbn_errs_sum : forall l acc,
    is_finite (fold_left (a_add FA) l acc) = true -> (forall v, In v (kbn_errs acc l) -> is_finite v = true) ->
    B2R (fold_left (a_add FA) l acc) + rsum (map B2R (kbn_errs acc l)) = B2R acc + rsum (map B2R l).
  Proof.
    induction l as [|x l IH]; intros acc H HE; cbn [fold_left kbn_errs map rsum] in *; [ring|].
    destruct (fold_add_fin _ _ H) as [F1 _].
    pose proof (kbn_err_exact acc x F1 (HE _ (or_introl eq_refl))) as E.
    specialize (IH (a_add FA acc x) H (fun v Hv => HE v (or_intror Hv))).
    lra.
  Qed.

  Lemma kbn_errs_nth : forall l acc k e, nth_error (kbn_errs acc l) k = Some e ->
    exists x, nth_error l k = Some x /\ e = kbn_err (fold_left (a_add FA) (firstn k l) acc) x.
  Proof.
    induction l as [|x l IH]; intros acc [|k] e H; cbn [kbn_errs nth_error] in H; try discriminate.
    - injection H as <-. exists x. split; reflexivity.
    - destruct (IH _ _ _ H) as (y & Hy & Ee). exists y. split; [exact Hy|exact Ee].
  Qed.

  Lemma kbn_errs_length : forall l acc, length (kbn_errs acc l) = length l.
  Proof. induction l as [|x l IH]; intros acc; cbn; [reflexivity|]. rewrite IH. reflexivity. Qed.

  Lemma ofZ0 : a_ofZ FA 0 = B754_zero false.
  Proof. reflexivity. Qed.

  Lemma firstn_S_nth {X} : forall (l : list X) k x, nth_error l k = Some x -> firstn (S k) l = firstn k l ++ [x].
  Proof.
    induction l as [|y l IH]; intros [|k] x H; cbn in H; try discriminate.
    - injection H as ->. reflexivity.
    - cbn [firstn app]. f_equal. apply IH. exact H.
  Qed.

  Lemma fsum_snoc l x : fsum FA (l ++ [x]) = a_add FA (fsum FA l) x.
  Proof. unfold fsum. rewrite fold_left_app. reflexivity. Qed.

  Lemma fold_fin_prefix : forall l (a : F) k, is_finite (fold_left (a_add FA) l a) = true ->
    is_finite (fold_left (a_add FA) (firstn k l) a) = true.
  Proof.
    induction l as [|x l IH]; intros a [|k] H; cbn [firstn fold_left] in *; try exact H.
    - exact (proj1 (plus_fin _ _ (proj1 (fold_add_fin _ _ H)))).
    - apply IH. exact H.
  Qed.

  Theorem kbnsum_ieee sz mx px sx (x : list F) v :
    view mx px sx x -> (forall a, In a x -> is_finite a = true) ->
    kbnsum_core_calc FA sz (Z.of_nat (length x)) mx px sx = Some v -> is_finite v = true ->
    exists e, length e = length x /\
      v = a_add FA (fsum FA x) (fsum FA e) /\
      B2R (fsum FA x) + rsum (map B2R e) = rsum (map B2R x) /\
      (forall k ek, nth_error e k = Some ek -> is_finite ek = true /\
         exists xk, nth_error x k = Some xk /\
           B2R ek = B2R (fsum FA (firstn k x)) + B2R xk - B2R (fsum FA (firstn (S k) x))).
  Proof.
    intros V HF E Fv.
    rewrite (kbnsum_finite_fold FA sz mx px sx x V) in E.
    2:{ intros a Ha. specialize (HF a Ha). cbn [a_cmp a_isinf farith]. rewrite isnan_f.
        destruct a; try discriminate; split; reflexivity. }
    injection E as E. unfold kbn_zero in E. rewrite kbn_fold_errs in E.
    unfold kbn_sum in E. cbn [fst snd] in E.
    change (fold_left (a_add FA) x (a_ofZ FA 0)) with (fsum FA x) in E.
    exists (kbn_errs (a_ofZ FA 0) x).
    change (fold_left (a_add FA) (kbn_errs (a_ofZ FA 0) x) (a_ofZ FA 0)) with (fsum FA (kbn_errs (a_ofZ FA 0) x)) in E.
    rewrite <- E in Fv. destruct (plus_fin _ _ Fv) as (Fs & Fc & _).
    destruct (fold_add_fin _ _ Fc) as [_ Fe].
    split; [apply kbn_errs_length|]. split; [symmetry; exact E|].
    split.
    - pose proof (kbn_errs_sum x (a_ofZ FA 0) Fs Fe) as K. rewrite ofZ0 in K at 3. cbn [B2R] in K.
      unfold fsum. lra.
    - intros k ek Hk. split; [apply Fe; eapply nth_error_In; exact Hk|].
      destruct (kbn_errs_nth x _ k ek Hk) as (xk & Hx & Ee). exists xk. split; [exact Hx|].
      pose proof (Fe ek (nth_error_In _ _ Hk)) as Fek. rewrite Ee in Fek.
      pose proof (kbn_err_exact _ _ (eq_trans (f_equal is_finite (eq_sym (fsum_snoc (firstn k x) xk)))
         (eq_trans (f_equal (fun l => is_finite (fsum FA l)) (eq_sym (firstn_S_nth x k xk Hx))) (fold_fin_prefix x _ (S k) Fs))) Fek) as K.
      rewrite Ee. rewrite (firstn_S_nth x k xk Hx), fsum_snoc. unfold fsum in *. lra.
  Qed.

  (** ** error bound *)
  Notation u := (u_ro radix2 prec).
  Lemma u_pos : 0 < u.
  Proof. unfold u_ro. apply Rmult_lt_0_compat; [lra|apply bpow_gt_0]. Qed.

  Lemma add_rel (a b : F) : is_finite (a_add FA a b) = true ->
    Rabs (B2R (a_add FA a b) - (B2R a + B2R b)) <= u * Rabs (B2R a + B2R b) /\
    Rabs (B2R (a_add FA a b) - (B2R a + B2R b)) <= u * Rabs (B2R (a_add FA a b)).
  Proof.
    intros H. destruct (plus_fin a b H) as (_ & _ & E). rewrite E.
    pose proof u_pos as U.
    destruct (FLT_plus_error_N_ex radix2 emin prec (fun x => negb (Z.even x)) (B2R a) (B2R b) (fmt a) (fmt b)) as (e1 & B1 & E1).
    destruct (FLT_plus_error_N_round_ex radix2 emin prec (fun x => negb (Z.even x)) (B2R a) (B2R b) (fmt a) (fmt b)) as (e2 & B2 & E2).
    split.
    - unfold NumF.rnd. change (SpecFloat.fexp prec emax) with (FLT_exp emin prec).
      rewrite E1. replace ((B2R a + B2R b) * (1 + e1) - (B2R a + B2R b)) with (e1 * (B2R a + B2R b)) by ring.
      rewrite Rabs_mult. apply Rmult_le_compat_r; [apply Rabs_pos|].
      eapply Rle_trans; [exact B1|].
      apply (Rmult_le_reg_r (1 + u)); [lra|]. unfold Rdiv. rewrite Rmult_assoc, Rinv_l by lra. nra.
    - unfold NumF.rnd. change (SpecFloat.fexp prec emax) with (FLT_exp emin prec).
      set (t := round radix2 (FLT_exp emin prec) (Znearest (fun x => negb (Z.even x))) (B2R a + B2R b)) in *.
      change (round radix2 (FLT_exp emin prec) ZnearestE (B2R a + B2R b)) with t.
      rewrite E2. replace (t - t * (1 + e2)) with ((- e2) * t) by ring.
      rewrite Rabs_mult, Rabs_Ropp. apply Rmult_le_compat_r; [apply Rabs_pos|exact B2].
  Qed.

  Lemma pow1u_ge n : 1 <= (1 + u) ^ n.
  Proof. apply pow_R1_Rle. pose proof u_pos. lra. Qed.

  Lemma rsumabs_nonneg l : 0 <= rsumabs l.
  Proof. unfold rsumabs. induction l as [|a l IH]; cbn [map rsum]; [lra|]. pose proof (Rabs_pos a). lra. Qed.

  Lemma fold_err : forall l (a : F), is_finite (fold_left (a_add FA) l a) = true ->
    Rabs (B2R (fold_left (a_add FA) l a) - (B2R a + rsum (map B2R l)))
      <= ((1 + u) ^ length l - 1) * (Rabs (B2R a) + rsumabs (map B2R l)) /\
    Rabs (B2R (fold_left (a_add FA) l a)) <= (1 + u) ^ length l * (Rabs (B2R a) + rsumabs (map B2R l)).
  Proof.
    pose proof u_pos as U.
    induction l as [|x l IH]; intros a H; cbn [fold_left map rsum length pow] in *.
    - unfold rsumabs. cbn [map rsum]. replace (B2R a - (B2R a + 0)) with 0 by ring. rewrite Rabs_R0. split; lra.
    - destruct (fold_add_fin _ _ H) as [F1 _]. destruct (IH _ H) as [I1 I2].
      destruct (add_rel a x F1) as [R1 _].
      unfold rsumabs in *. cbn [map rsum].
      set (s := B2R (a_add FA a x)) in *. set (t := B2R (fold_left (a_add FA) l (a_add FA a x))) in *.
      set (SL := rsum (map B2R l)) in *. set (AL := rsum (map Rabs (map B2R l))) in *.
      assert (HAL : 0 <= AL) by apply (rsumabs_nonneg (map B2R l)).
      pose proof (pow1u_ge (length l)) as HG. set (g := (1 + u) ^ length l) in *.
      pose proof (Rabs_triang (B2R a) (B2R x)) as TR.
      assert (HS : Rabs s <= (1 + u) * (Rabs (B2R a) + Rabs (B2R x))).
      { replace s with ((s - (B2R a + B2R x)) + (B2R a + B2R x)) by ring.
        eapply Rle_trans; [apply Rabs_triang|]. nra. }
      pose proof (Rabs_pos (B2R a)) as P1. pose proof (Rabs_pos (B2R x)) as P2.
      split.
      + replace (t - (B2R a + (B2R x + SL))) with ((t - (s + SL)) + (s - (B2R a + B2R x))) by ring.
        eapply Rle_trans; [apply Rabs_triang|].
        assert (K1 : Rabs (t - (s + SL)) <= (g - 1) * ((1 + u) * (Rabs (B2R a) + Rabs (B2R x)) + AL)).
        { eapply Rle_trans; [exact I1|]. apply Rmult_le_compat_l; lra. }
        assert (K2 : Rabs (s - (B2R a + B2R x)) <= u * (Rabs (B2R a) + Rabs (B2R x))).
        { eapply Rle_trans; [exact R1|]. apply Rmult_le_compat_l; lra. }
        assert (K3 : 0 <= u * g * AL) by (apply Rmult_le_pos; [apply Rmult_le_pos; lra|lra]).
        nra.
      + eapply Rle_trans; [exact I2|].
        assert (K3 : 0 <= u * g * AL) by (apply Rmult_le_pos; [apply Rmult_le_pos; lra|lra]).
        assert (K4 : g * Rabs s <= g * ((1 + u) * (Rabs (B2R a) + Rabs (B2R x)))) by (apply Rmult_le_compat_l; lra).
        nra.
  Qed.

  Lemma pow1u_mono m n : (m <= n)%nat -> (1 + u) ^ m <= (1 + u) ^ n.
  Proof. intros H. apply Rle_pow; [pose proof u_pos; lra|exact H]. Qed.

  Lemma rsumabs_firstn l k : rsumabs (firstn k l) <= rsumabs l.
  Proof.
    revert k. induction l as [|a l IH]; intros [|k]; cbn [firstn]; try lra.
    - apply (rsumabs_nonneg (a :: l)).
    - unfold rsumabs in *. cbn [map rsum]. specialize (IH k). lra.
  Qed.

  Lemma rsumabs_bound (l : list R) B : (forall a, In a l -> Rabs a <= B) -> rsumabs l <= INR (length l) * B.
  Proof.
    unfold rsumabs. induction l as [|a l IH]; intros H; [cbn; lra|].
    cbn [map rsum]. rewrite S_INR in * || (cbn [length]; rewrite S_INR).
    pose proof (H a (or_introl eq_refl)). specialize (IH (fun b Hb => H b (or_intror Hb))). lra.
  Qed.

  Theorem kbnsum_bound sz mx px sx (x : list F) v :
    view mx px sx x -> (forall a, In a x -> is_finite a = true) ->
    kbnsum_core_calc FA sz (Z.of_nat (length x)) mx px sx = Some v -> is_finite v = true ->
    let n := length x in let S := rsum (map B2R x) in
    Rabs (B2R v - S)
      <= u * Rabs S + (1 + u) * (((1 + u) ^ n - 1) * (INR n * (u * (1 + u) ^ n))) * rsumabs (map B2R x).
  Proof.
    intros V HF E Fv n S. pose proof u_pos as U.
    destruct (kbnsum_ieee sz mx px sx x v V HF E Fv) as (e & HL & Ev & HS & HE).
    rewrite Ev in Fv. destruct (plus_fin _ _ Fv) as (Fs & Fc & _).
    destruct (add_rel _ _ Fv) as [R1 _].
    destruct (fold_err e (a_ofZ FA 0) Fc) as [C1 _].
    change (fold_left (a_add FA) e (a_ofZ FA 0)) with (fsum FA e) in C1.
    rewrite ofZ0 in C1. cbn [B2R] in C1. rewrite Rabs_R0, !Rplus_0_l in C1.
    rewrite HL in C1. fold n in C1.
    assert (EB : rsumabs (map B2R e) <= INR n * (u * (1 + u) ^ n * rsumabs (map B2R x))).
    { unfold n. rewrite <- HL, <- (map_length B2R e). apply rsumabs_bound.
      intros a Ha. apply in_map_iff in Ha. destruct Ha as (ek & <- & Hin).
      apply In_nth_error in Hin. destruct Hin as (k & Hk).
      destruct (HE k ek Hk) as (Fek & xk & Hx & Ek).
      assert (Fp : is_finite (fsum FA (firstn (Datatypes.S k) x)) = true) by (apply fold_fin_prefix; exact Fs).
      assert (Esn : fsum FA (firstn (Datatypes.S k) x) = a_add FA (fsum FA (firstn k x)) xk).
      { rewrite (firstn_S_nth x k xk Hx). apply fsum_snoc. }
      rewrite Esn in Fp. destruct (add_rel _ _ Fp) as [_ R2].
      rewrite <- Esn in R2. rewrite Ek.
      replace (B2R (fsum FA (firstn k x)) + B2R xk - B2R (fsum FA (firstn (Datatypes.S k) x)))
        with (- (B2R (fsum FA (firstn (Datatypes.S k) x)) - (B2R (fsum FA (firstn k x)) + B2R xk))) by ring.
      rewrite Rabs_Ropp. eapply Rle_trans; [exact R2|].
      rewrite Rmult_assoc. apply Rmult_le_compat_l; [lra|].
      rewrite map_length, HL.
      rewrite Esn in *. destruct (fold_err (firstn (Datatypes.S k) x) (a_ofZ FA 0)) as [_ C2].
      { apply fold_fin_prefix. exact Fs. }
      change (fold_left (a_add FA) (firstn (Datatypes.S k) x) (a_ofZ FA 0)) with (fsum FA (firstn (Datatypes.S k) x)) in C2.
      rewrite Esn in C2. rewrite ofZ0 in C2. cbn [B2R] in C2. rewrite Rabs_R0, Rplus_0_l in C2.
      eapply Rle_trans; [exact C2|].
      apply Rmult_le_compat; [left; apply Rlt_le_trans with 1; [lra|apply pow1u_ge]|apply rsumabs_nonneg| |].
      - apply pow1u_mono. rewrite firstn_length. lia.
      - rewrite <- firstn_map. apply rsumabs_firstn. }
    set (s := B2R (fsum FA x)) in *. set (c := B2R (fsum FA e)) in *. set (SE := rsum (map B2R e)) in *.
    rewrite Ev. set (w := B2R (a_add FA (fsum FA x) (fsum FA e))) in *.
    fold S in HS. set (X := rsumabs (map B2R x)) in *.
    assert (HX : 0 <= X) by apply rsumabs_nonneg.
    pose proof (pow1u_ge n) as HG. set (g := (1 + u) ^ n) in *.
    assert (D : Rabs (c - SE) <= (g - 1) * (INR n * (u * g * X))).
    { eapply Rle_trans; [exact C1|]. apply Rmult_le_compat_l; [lra|exact EB]. }
    replace (w - S) with ((w - (s + c)) + (c - SE)) by lra.
    eapply Rle_trans; [apply Rabs_triang|].
    assert (D2 : Rabs (s + c) <= Rabs S + Rabs (c - SE)).
    { replace (s + c) with (S + (c - SE)) by lra. apply Rabs_triang. }
    assert (D3 : u * Rabs (s + c) <= u * (Rabs S + Rabs (c - SE))) by (apply Rmult_le_compat_l; lra).
    assert (D4 : (1 + u) * Rabs (c - SE) <= (1 + u) * ((g - 1) * (INR n * (u * g * X)))) by (apply Rmult_le_compat_l; lra).
    replace ((1 + u) * ((g - 1) * (INR n * (u * g))) * X) with ((1 + u) * ((g - 1) * (INR n * (u * g * X)))) by ring.
    lra.
  Qed.

  (** ** infinities and NaN, contiguous data *)
  Lemma first_nonfinite (x : list F) : (exists a, In a x /\ is_finite a = false) ->
    exists pre a post, x = pre ++ a :: post /\ (forall b, In b pre -> is_finite b = true) /\ is_finite a = false.
  Proof.
    induction x as [|y x IH]; intros (a & Ha & Fa); [destruct Ha|].
    destruct (is_finite y) eqn:Fy.
    - destruct Ha as [->|Ha]; [congruence|]. destruct (IH (ex_intro _ a (conj Ha Fa))) as (pre & b & post & -> & P & Q).
      exists (y :: pre), b, post. split; [reflexivity|]. split; [|exact Q].
      intros c [<-|Hc]; [exact Fy|exact (P c Hc)].
    - exists [], y, x. split; [reflexivity|]. split; [intros b []|exact Fy].
  Qed.

  Lemma lloop_app_next {T S R} (f : Z -> T -> S -> M (ctl S R)) (g : S -> T -> S) post : forall pre k s,
    (forall k x s, In x pre -> f k x s = Some (Next (g s x))) ->
    lloop k (pre ++ post) f s = lloop (k + Z.of_nat (length pre)) post f (fold_left g pre s).
  Proof.
    induction pre as [|x pre IH]; intros k s H; cbn [app lloop fold_left length].
    - f_equal. lia.
    - rewrite (H k x s (or_introl eq_refl)). rewrite IH by (intros k' y s' Hy; apply H; right; exact Hy).
      f_equal. lia.
  Qed.

  Lemma inner_loop (a : F) : forall l k,
    lloop k l (fun (_ : Z) y (_ : unit) =>
      ret (if isnanb (a_cmp FA) (a_add FA a y) then @Ret unit F (a_nan FA) else Next tt)) tt
    = Some (if existsb (fun y => is_nan (a_add FA a y)) l then inr (a_nan FA) else inl tt).
  Proof.
    induction l as [|y l IH]; intros k; [reflexivity|]. cbn [lloop existsb ret].
    cbn [a_cmp farith]. rewrite isnan_f. destruct (is_nan (a_add FA a y)); [reflexivity|].
    apply IH.
  Qed.

  Theorem kbnsum_nonfinite sz mx px (x : list F) :
    view mx px sz x -> (exists a, In a x /\ is_finite a = false) ->
    exists v, kbnsum_core_calc FA sz (Z.of_nat (length x)) mx px sz = Some v /\
      ((In B754_nan x \/ (In (B754_infinity false) x /\ In (B754_infinity true) x)) -> v = B754_nan) /\
      (forall s, In (B754_infinity s) x -> ~ In B754_nan x -> ~ In (B754_infinity (negb s)) x -> v = B754_infinity s).
  Proof.
    intros V H. destruct (first_nonfinite x H) as (pre & a & post & Ex & Hpre & Ha). clear H.
    unfold kbnsum_core_calc.
    rewrite (for_loop_view mx px sz x _
      (fun k xk st =>
         if isnanb (a_cmp FA) xk then ret (Ret xk)
         else if a_isinf FA xk then
           bind (for_loop (k + 1) (Z.of_nat (length x))
             (fun j (_ : unit) =>
                bind (load mx (px + j * sz)%Z) (fun y =>
                ret (if isnanb (a_cmp FA) (a_add FA xk y) then @Ret unit F (a_nan FA) else Next tt))) tt)
           (fun r => ret (match r with inr v => Ret v | inl _ => Ret xk end))
         else ret (Next (kbn_add FA st xk))) (kbn_zero FA) V).
    2:{ intros k s v Hk Hg. rewrite Hg. reflexivity. }
    match goal with |- context [lloop 0 x ?f ?s] => replace (lloop 0 x f s) with (lloop 0 (pre ++ a :: post) f s) by (rewrite Ex; reflexivity) end.
    rewrite (lloop_app_next _ (kbn_add FA) (a :: post) pre).
    2:{ intros k b s Hb. specialize (Hpre b Hb). cbn [a_cmp a_isinf farith]. rewrite isnan_f.
        destruct b; try discriminate; reflexivity. }
    cbn [lloop].
    assert (Fpre : forall b, In b x -> is_finite b = false -> b = a \/ In b post).
    { intros b Hb Fb. rewrite Ex in Hb. apply in_app_or in Hb. destruct Hb as [Hb|[Hb|Hb]].
      - rewrite (Hpre b Hb) in Fb. discriminate.
      - left; symmetry; exact Hb.
      - right; exact Hb. }
    destruct a as [s|s| |s m e Hm]; try discriminate.
    - (* infinity *)
      cbn [a_cmp farith]. rewrite isnan_f. cbn [is_nan a_isinf farith fisinf].
      assert (EI : for_loop (0 + Z.of_nat (length pre) + 1) (Z.of_nat (length x))
         (fun j (_ : unit) => bind (load mx (px + j * sz)%Z) (fun y =>
            ret (if isnanb (@Bcompare prec emax) (Bplus mode_NE (B754_infinity s) y) then @Ret unit F (a_nan FA) else Next tt))) tt
         = Some (if existsb (fun y => is_nan (a_add FA (B754_infinity s) y)) post then inr (a_nan FA) else inl tt)).
      { replace (0 + Z.of_nat (length pre) + 1)%Z with (Z.of_nat (S (length pre))) by lia.
        rewrite (for_loop_view_from mx px sz x (S (length pre)) _
           (fun (_ : Z) y (_ : unit) => ret (if isnanb (a_cmp FA) (a_add FA (B754_infinity s) y) then @Ret unit F (a_nan FA) else Next tt)) tt V).
        - rewrite Ex at 1. replace (skipn (S (length pre)) (pre ++ B754_infinity s :: post)) with post.
          + apply inner_loop.
          + clear. induction pre as [|y pre IH]; [reflexivity|]. cbn [length app skipn] in *. exact IH.
        - intros k st y Hk Hg. unfold get in Hg. rewrite Hg. reflexivity.
        - rewrite Ex, app_length. cbn [length]. lia. }
      cbn [a_add farith a_nan] in EI |- *. unfold mem, M in *.
      rewrite EI. cbn [bind ret].
      exists (if existsb (fun y => is_nan (Bplus mode_NE (B754_infinity s) y)) post then B754_nan else B754_infinity s).
      split; [destruct (existsb _ post); reflexivity|].
      assert (EX : existsb (fun y => is_nan (Bplus mode_NE (B754_infinity s) y)) post = true <->
                   (In B754_nan post \/ In (B754_infinity (negb s)) post)).
      { rewrite existsb_exists. split.
        - intros (y & Hy & Ny). destruct y as [s'|s'| |s' m e Hm]; cbn in Ny; try discriminate.
          + destruct s, s'; cbn in Ny; try discriminate; right; exact Hy.
          + left; exact Hy.
        - intros [Hy|Hy]; eexists; (split; [exact Hy|]); [reflexivity|destruct s; reflexivity]. }
      destruct (existsb _ post) eqn:EE.
      + split; [reflexivity|]. intros s' Hs' Nn Ni. destruct (proj1 EX eq_refl) as [Hy|Hy].
        * exfalso. apply Nn. rewrite Ex. apply in_or_app. right; right; exact Hy.
        * exfalso. apply Ni.
          assert (s' = s \/ s' = negb s) as [->| ->] by (destruct s, s'; auto).
          -- rewrite Ex. apply in_or_app. right; right; exact Hy.
          -- rewrite negb_involutive. rewrite Ex. apply in_or_app. right; left; reflexivity.
      + assert (NE : ~ (In B754_nan post \/ In (B754_infinity (negb s)) post)) by (intros C; apply EX in C; discriminate).
        split.
        * intros [Hn|[Hf Ht]].
          -- destruct (Fpre _ Hn eq_refl) as [C|C]; [discriminate|exfalso; apply NE; left; exact C].
          -- exfalso. apply NE. right. destruct s; cbn [negb].
             ++ destruct (Fpre _ Hf eq_refl) as [C|C]; [discriminate|exact C].
             ++ destruct (Fpre _ Ht eq_refl) as [C|C]; [discriminate|exact C].
        * intros s' Hs' Nn Ni. destruct (Fpre _ Hs' eq_refl) as [C|C]; [symmetry; exact C|].
          destruct (bool_dec s' s) as [->|D]; [reflexivity|]. exfalso. apply NE. right.
          replace (negb s) with s' by (destruct s, s'; try reflexivity; congruence). exact C.
    - (* nan *)
      cbn. exists B754_nan. split; [reflexivity|]. split; [reflexivity|].
      intros s Hs Nn Ni. exfalso. apply Nn. rewrite Ex. apply in_or_app. right; left; reflexivity.
  Qed.
End IEEE.
