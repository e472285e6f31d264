(** Proofs about meanvar. *)
From Coq Require Import ZArith Reals List Bool Lia Lra.
From Flocq Require Import Core BinarySingleNaN.
From Verif Require Import CSem CSemP FoldP Num NumP NumF NumX M_Stat S_Stat P_Kbn.
Import ListNotations.
Open Scope R_scope.

(** ** real lists *)
Lemma rsum_map_add {T} (f g : T -> R) l : rsum (map (fun x => f x + g x) l) = rsum (map f l) + rsum (map g l).
Proof. induction l as [|a l IH]; cbn [map rsum]; [ring|]. rewrite IH. ring. Qed.
Lemma rsum_map_scal {T} c (f : T -> R) l : rsum (map (fun x => c * f x) l) = c * rsum (map f l).
Proof. induction l as [|a l IH]; cbn [map rsum]; [ring|]. rewrite IH. ring. Qed.
Lemma rsum_const {T} c (l : list T) : rsum (map (fun _ => c) l) = INR (length l) * c.
Proof. induction l as [|a l IH]; [cbn; ring|]. cbn [map rsum length]. rewrite IH, S_INR. ring. Qed.
Lemma rsum_ext {T} (f g : T -> R) l : (forall x, In x l -> f x = g x) -> rsum (map f l) = rsum (map g l).
Proof. intros H. f_equal. apply map_ext_in. exact H. Qed.
Lemma rsum_nonneg l : (forall a, In a l -> 0 <= a) -> 0 <= rsum l.
Proof.
  induction l as [|a l IH]; intros H; cbn [rsum]; [lra|].
  pose proof (H a (or_introl eq_refl)). specialize (IH (fun b Hb => H b (or_intror Hb))). lra.
Qed.
Lemma rsum_zero l : (forall a, In a l -> 0 <= a) -> rsum l = 0 -> forall a, In a l -> a = 0.
Proof.
  induction l as [|a l IH]; intros H E b Hb; [destruct Hb|]. cbn [rsum] in E.
  pose proof (H a (or_introl eq_refl)). pose proof (rsum_nonneg l (fun b Hb => H b (or_intror Hb))).
  destruct Hb as [<-|Hb]; [lra|]. apply IH; [intros c Hc; apply H; right; exact Hc|lra|exact Hb].
Qed.
Lemma INR_len_pos {T} (l : list T) : l <> [] -> 0 < INR (length l).
Proof. destruct l; [congruence|]. intros _. apply lt_0_INR. cbn; lia. Qed.

Lemma rss_alt l : l <> [] ->
  rss l = rsum (map (fun x => x * x) l) - INR (length l) * (rmean l * rmean l).
Proof.
  intros H. unfold rss. set (m := rmean l).
  assert (Hm : rsum l = INR (length l) * m).
  { unfold m, rmean. field. apply Rgt_not_eq, INR_len_pos, H. }
  rewrite (rsum_ext _ (fun x => (x * x + (-(2 * m)) * x) + m * m)) by (intros; ring).
  rewrite rsum_map_add, rsum_map_add, rsum_map_scal, rsum_const, map_id. rewrite Hm. ring.
Qed.

Lemma rss_nonneg l : 0 <= rss l.
Proof. apply rsum_nonneg. intros a Ha. apply in_map_iff in Ha. destruct Ha as (x & <- & _). apply Rle_0_sqr. Qed.

Lemma rmean_const l c : l <> [] -> (forall a, In a l -> a = c) -> rmean l = c.
Proof.
  intros H E. unfold rmean. rewrite <- (map_id l) at 1. rewrite (rsum_ext _ (fun _ => c)) by exact E.
  rewrite rsum_const. field. apply Rgt_not_eq, INR_len_pos, H.
Qed.

Lemma rss_zero_iff l : rss l = 0 <-> constant l.
Proof.
  split.
  - intros E. assert (K : forall a, In a l -> a = rmean l).
    { intros a Ha. assert (Q : (a - rmean l) * (a - rmean l) = 0).
      { apply (rsum_zero (map (fun x => (x - rmean l) * (x - rmean l)) l)).
        - intros b Hb. apply in_map_iff in Hb. destruct Hb as (x & <- & _). apply Rle_0_sqr.
        - exact E.
        - apply in_map_iff. exists a. split; [reflexivity|exact Ha]. }
      apply Rmult_integral in Q. lra. }
    intros a b Ha Hb. rewrite (K a Ha), (K b Hb). reflexivity.
  - intros C. destruct l as [|c l]; [reflexivity|].
    assert (E : rmean (c :: l) = c).
    { apply rmean_const; [discriminate|]. intros a Ha. apply C; [exact Ha|left; reflexivity]. }
    unfold rss. rewrite E. rewrite (rsum_ext _ (fun _ => 0)).
    + rewrite rsum_const. ring.
    + intros x Hx. rewrite (C x c Hx (or_introl eq_refl)). ring.
Qed.

Lemma rmean_affine a b l : l <> [] -> rmean (map (fun x => a * x + b) l) = a * rmean l + b.
Proof.
  intros H. unfold rmean. rewrite map_length, rsum_map_add, rsum_map_scal, rsum_const, map_id.
  field. apply Rgt_not_eq, INR_len_pos, H.
Qed.

Lemma rss_affine a b l : l <> [] -> rss (map (fun x => a * x + b) l) = a * a * rss l.
Proof.
  intros H. unfold rss. rewrite rmean_affine by exact H. rewrite map_map.
  rewrite <- rsum_map_scal. apply rsum_ext. intros x _. ring.
Qed.

Lemma view2_uniq {T} (m : mem T) p s (a b c d : T) : view m p s [a; b] -> view m p s [c; d] -> [a; b] = [c; d].
Proof. intros H1 H2. exact (view_uniq m p s [a; b] [c; d] eq_refl H1 H2). Qed.

(** ** the core in any arithmetic *)
Section Any.
  Context {T U : Type} (A : arith U) (up : T -> U).
  Definition mv_zero : U * U * U * U := (a_ofZ A 0, a_ofZ A 0, a_ofZ A 0, a_ofZ A 0).
  Lemma meanvar_fold mx px sx x ddof mo po so :
    view mx px sx x -> writable mo po so 2 ->
    writes (meanvar_core A up (Z.of_nat (length x)) mx px sx ddof mo po so) mo po so
      (let '(mean, m2, _, _) := foldi (fun k s a => meanvar_step A up k a s) 0 x mv_zero in
       [mean; a_div A m2 (a_ofZ A (Z.of_nat (length x) - ddof))]).
  Proof.
    intros V [W1 W2]. unfold meanvar_core.
    rewrite (for_each_foldi mx px sx x _ (fun k s a => meanvar_step A up k a s) _ V).
    2:{ intros k s a _ Hg. rewrite Hg. reflexivity. }
    change (a_ofZ A 0, a_ofZ A 0, a_ofZ A 0, a_ofZ A 0) with mv_zero.
    destruct (foldi _ 0%Z x mv_zero) as [[[mean m2] c1] c2]. cbn [bind].
    exists (upds mo po so 0 [mean; a_div A m2 (a_ofZ A (Z.of_nat (length x) - ddof))]).
    assert (Hs : so <> 0%Z) by (destruct W2 as [W2|W2]; [exact W2|lia]).
    split.
    - pose proof (W1 0%nat ltac:(lia)) as O0. pose proof (W1 1%nat ltac:(lia)) as O1.
      cbn [Z.of_nat] in O0. rewrite Z.mul_0_l, Z.add_0_r in O0.
      unfold store. destruct (mo po) eqn:E0; [|congruence]. cbn [bind].
      change (fun b : Z => if (b =? po)%Z then Some mean else mo b) with (upd mo po mean).
      rewrite set_upd.
      + cbn [upds]. rewrite Z.mul_0_l, Z.add_0_r. reflexivity.
      + rewrite upd_other; [exact O1|lia].
    - apply upds_wrote. left; exact Hs.
  Qed.
End Any.

(** ** exact arithmetic *)
Section Exact.
  Context {T : Type} (up : T -> ER) (rf : T -> R).
  Let stp := fun k s a => meanvar_step earith up k a s.

  Lemma meanvar_foldi_exact : forall l k m q, (0 <= k)%Z -> (forall a, In a l -> up a = Fin (rf a)) ->
    exists m' q', foldi stp k l (Fin m, Fin q, Fin 0, Fin 0) = (Fin m', Fin q', Fin 0, Fin 0) /\
      m' * (IZR k + INR (length l)) = m * IZR k + rsum (map rf l) /\
      q' = q + IZR k * (m * m) + rsum (map (fun a => rf a * rf a) l) - (IZR k + INR (length l)) * (m' * m').
  Proof.
    induction l as [|x l IH]; intros k m q Hk H.
    - exists m, q. cbn. split; [reflexivity|]. split; ring.
    - pose proof (H x (or_introl eq_refl)) as Hx.
      assert (K : 0 < IZR k + 1) by (apply IZR_le in Hk; lra).
      assert (E : stp k (Fin m, Fin q, Fin 0, Fin 0) x
        = (Fin (m + (rf x - m) / (IZR k + 1)), Fin (q + (rf x - m) * (rf x - (m + (rf x - m) / (IZR k + 1)))), Fin 0, Fin 0)).
      { unfold stp, meanvar_step, compensated_update. rewrite Hx.
        cbn [a_add a_sub a_div a_mul a_ofZ earith esub eopp eadd]. rewrite plus_IZR.
        rewrite ediv_Fin by lra. cbn [esub eopp eadd emul].
        repeat apply f_equal2; apply f_equal; unfold Rminus; rewrite ?Ropp_0; ring. }
      cbn [foldi]. rewrite E.
      set (m1 := m + (rf x - m) / (IZR k + 1)) in *.
      assert (E1 : m1 * (IZR k + 1) = m * IZR k + rf x) by (unfold m1; field; lra).
      destruct (IH (k + 1)%Z m1 (q + (rf x - m) * (rf x - m1)) ltac:(lia) (fun a Ha => H a (or_intror Ha)))
        as (m' & q' & F & Em & Eq).
      exists m', q'. rewrite F. split; [reflexivity|]. rewrite plus_IZR in Em, Eq.
      cbn [length map rsum]. rewrite S_INR. split.
      + replace (IZR k + (INR (length l) + 1)) with (IZR k + 1 + INR (length l)) by ring. rewrite Em, E1. ring.
      + rewrite Eq.
        assert (Z1 : (rf x - m) * (rf x - m1) + (IZR k + 1) * (m1 * m1) = IZR k * (m * m) + rf x * rf x).
        { replace ((IZR k + 1) * (m1 * m1)) with ((m1 * (IZR k + 1)) * m1) by ring. rewrite E1.
          replace ((rf x - m) * (rf x - m1) + (m * IZR k + rf x) * m1)
            with (rf x * rf x - m * rf x + m * (m1 * (IZR k + 1))) by ring. rewrite E1. ring. }
        lra.
  Qed.

  Theorem meanvar_exact mx px sx x ddof mo po so :
    view mx px sx x -> writable mo po so 2 -> x <> [] -> (forall a, In a x -> up a = Fin (rf a)) ->
    Z.of_nat (length x) <> ddof ->
    writes (meanvar_core earith up (Z.of_nat (length x)) mx px sx ddof mo po so) mo po so
      [Fin (rmean (map rf x)); Fin (rss (map rf x) / IZR (Z.of_nat (length x) - ddof))].
  Proof.
    intros V W Hx H Hd. pose proof (meanvar_fold earith up mx px sx x ddof mo po so V W) as F.
    destruct (meanvar_foldi_exact x 0 0 0 ltac:(lia) H) as (m & q & E & Em & Eq).
    unfold mv_zero in F. cbn [a_ofZ earith] in F. unfold stp in E. rewrite E in F.
    cbn [a_div earith] in F. rewrite ediv_Fin in F by (apply not_0_IZR; lia).
    pose proof (INR_len_pos x Hx) as P.
    assert (M1 : m = rmean (map rf x)).
    { unfold rmean. rewrite map_length. apply (Rmult_eq_reg_r (INR (length x))); [|lra].
      rewrite Rmult_0_l, !Rplus_0_l in Em. rewrite Em. field. lra. }
    assert (Q1 : q = rss (map rf x)).
    { rewrite rss_alt by (destruct x; [congruence|discriminate]). rewrite map_length, map_map, <- M1, Eq. ring. }
    rewrite <- M1, <- Q1. exact F.
  Qed.

  Theorem meanvar_ddof_n mx px sx x mo po so :
    view mx px sx x -> writable mo po so 2 -> x <> [] -> (forall a, In a x -> up a = Fin (rf a)) ->
    exists v, writes (meanvar_core earith up (Z.of_nat (length x)) mx px sx (Z.of_nat (length x)) mo po so) mo po so
      [Fin (rmean (map rf x)); v] /\ (constant (map rf x) -> v = ENaN) /\ (~ constant (map rf x) -> v = PInf).
  Proof.
    intros V W Hx H. pose proof (meanvar_fold earith up mx px sx x (Z.of_nat (length x)) mo po so V W) as F.
    destruct (meanvar_foldi_exact x 0 0 0 ltac:(lia) H) as (m & q & E & Em & Eq).
    unfold mv_zero in F. cbn [a_ofZ earith] in F. unfold stp in E. rewrite E in F.
    cbn [a_div earith] in F. rewrite Z.sub_diag in F.
    pose proof (INR_len_pos x Hx) as P.
    assert (M1 : m = rmean (map rf x)).
    { unfold rmean. rewrite map_length. apply (Rmult_eq_reg_r (INR (length x))); [|lra].
      rewrite Rmult_0_l, !Rplus_0_l in Em. rewrite Em. field. lra. }
    assert (Q1 : q = rss (map rf x)).
    { rewrite rss_alt by (destruct x; [congruence|discriminate]). rewrite map_length, map_map, <- M1, Eq. ring. }
    rewrite <- M1. eexists. split; [exact F|]. rewrite <- rss_zero_iff, <- Q1.
    cbn [ediv]. rewrite Rcompare_Eq by reflexivity. pose proof (rss_nonneg (map rf x)) as NN. rewrite <- Q1 in NN.
    split; intros C.
    - rewrite Rcompare_Eq by exact C. reflexivity.
    - rewrite Rcompare_Gt by lra. reflexivity.
  Qed.

  Theorem meanvar_var_zero_iff mx px sx x ddof mo po so m v :
    view mx px sx x -> writable mo po so 2 -> x <> [] -> (forall a, In a x -> up a = Fin (rf a)) ->
    (ddof < Z.of_nat (length x))%Z ->
    writes (meanvar_core earith up (Z.of_nat (length x)) mx px sx ddof mo po so) mo po so [m; v] ->
    exists r, v = Fin r /\ 0 <= r /\ (r = 0 <-> constant (map rf x)).
  Proof.
    intros V W Hx H Hd Wr. pose proof (meanvar_exact mx px sx x ddof mo po so V W Hx H ltac:(lia)) as Wr'.
    destruct Wr as (m1 & E1 & V1 & _). destruct Wr' as (m2 & E2 & V2 & _).
    rewrite E1 in E2. injection E2 as <-.
    pose proof (view2_uniq _ _ _ _ _ _ _ V1 V2) as Q. injection Q as _ Qv.
    assert (P : 0 < IZR (Z.of_nat (length x) - ddof)) by (apply IZR_lt; lia).
    pose proof (rss_nonneg (map rf x)) as NN.
    exists (rss (map rf x) / IZR (Z.of_nat (length x) - ddof)). split; [exact Qv|]. split.
    - apply Rmult_le_pos; [exact NN|]. left. apply Rinv_0_lt_compat. exact P.
    - rewrite <- rss_zero_iff. split.
      + intros E. apply (f_equal (fun r => r * IZR (Z.of_nat (length x) - ddof))) in E.
        unfold Rdiv in E. rewrite Rmult_assoc, Rinv_l in E by lra. lra.
      + intros ->. unfold Rdiv. ring.
  Qed.

  Theorem meanvar_affine mx px sx x my py sy y ddof mo po so mo' po' so' a b m v m' v' :
    view mx px sx x -> view my py sy y -> x <> [] ->
    (forall t, In t x -> up t = Fin (rf t)) -> (forall t, In t y -> up t = Fin (rf t)) ->
    map rf y = map (fun t => a * rf t + b) x ->
    writable mo po so 2 -> writable mo' po' so' 2 -> Z.of_nat (length x) <> ddof ->
    writes (meanvar_core earith up (Z.of_nat (length x)) mx px sx ddof mo po so) mo po so [Fin m; Fin v] ->
    writes (meanvar_core earith up (Z.of_nat (length y)) my py sy ddof mo' po' so') mo' po' so' [m'; v'] ->
    m' = Fin (a * m + b) /\ v' = Fin (a * a * v).
  Proof.
    intros V V' Hx H H' E W W' Hd Wr Wr'.
    assert (EL : length y = length x) by (rewrite <- (map_length rf y), E, map_length; reflexivity).
    assert (Hy : y <> []) by (destruct x, y; try congruence; cbn in EL; lia).
    destruct (meanvar_exact mx px sx x ddof mo po so V W Hx H Hd) as (k1 & F1 & W1 & _).
    destruct (meanvar_exact my py sy y ddof mo' po' so' V' W' Hy H' ltac:(lia)) as (k2 & F2 & W2 & _).
    destruct Wr as (k3 & F3 & W3 & _). destruct Wr' as (k4 & F4 & W4 & _).
    rewrite F3 in F1. injection F1 as <-. rewrite F4 in F2. injection F2 as <-.
    pose proof (view2_uniq _ _ _ _ _ _ _ W3 W1) as Q. injection Q as -> ->.
    pose proof (view2_uniq _ _ _ _ _ _ _ W4 W2) as Q. injection Q as -> ->.
    rewrite E, EL. rewrite <- (map_map rf (fun t => a * t + b)).
    rewrite rmean_affine, rss_affine by (destruct x; [congruence|discriminate]).
    split; [reflexivity|]. f_equal. unfold Rdiv. ring.
  Qed.
End Exact.

(** ** IEEE: NaN and constant data *)
Section IEEE.
  Context (prec emax : Z) (Hp : Prec_gt_0 prec) (He : Prec_lt_emax prec emax).
  Notation F := (binary_float prec emax).
  Notation FA := (farith prec emax Hp He).
  Context {T : Type} (up : T -> F).
  Let stp := fun k s a => meanvar_step FA up k a s.
  Let nan4 : F * F * F * F := (B754_nan, B754_nan, B754_nan, B754_nan).

  Lemma stp_nan4 k x : stp k nan4 x = nan4.
  Proof.
    unfold stp, meanvar_step, nan4, compensated_update. cbn [a_add a_sub a_mul a_div farith].
    rewrite !Bminus_nan_r. cbn [Bdiv Bminus Bplus Bmult]. reflexivity.
  Qed.
  Lemma stp_nan k s x : up x = B754_nan -> stp k s x = nan4.
  Proof.
    intros E. destruct s as [[[mean m2] c1] c2].
    unfold stp, meanvar_step, nan4, compensated_update. rewrite E. cbn [a_add a_sub a_mul a_div farith].
    cbn [Bminus]. change (Bdiv mode_NE B754_nan (a_ofZ FA (k + 1))) with (@B754_nan prec emax).
    cbn [Bminus Bmult]. rewrite !Bplus_nan_r. cbn [Bminus]. reflexivity.
  Qed.
  Lemma foldi_nan4 : forall l k, foldi stp k l nan4 = nan4.
  Proof. induction l as [|x l IH]; intros k; [reflexivity|]. cbn [foldi]. rewrite stp_nan4. apply IH. Qed.
  Lemma foldi_nan : forall l k s, (exists a, In a l /\ up a = B754_nan) -> foldi stp k l s = nan4.
  Proof.
    induction l as [|x l IH]; intros k s (a & Ha & E); [destruct Ha|]. cbn [foldi].
    destruct Ha as [->|Ha].
    - rewrite stp_nan by exact E. apply foldi_nan4.
    - apply IH. exists a. split; assumption.
  Qed.

  Theorem meanvar_nan mx px sx x ddof mo po so :
    view mx px sx x -> writable mo po so 2 -> (exists a, In a x /\ up a = B754_nan) ->
    writes (meanvar_core FA up (Z.of_nat (length x)) mx px sx ddof mo po so) mo po so [B754_nan; B754_nan].
  Proof.
    intros V W H. pose proof (meanvar_fold FA up mx px sx x ddof mo po so V W) as K.
    pose proof (foldi_nan x 0 (mv_zero FA) H) as Q. unfold stp in Q. rewrite Q in K. exact K.
  Qed.

  (** a state whose four components denote (c, 0, 0, 0) *)
  Let zr (v : F) : Prop := f2e _ _ v = Fin 0.
  Let cst (c : R) (s : F * F * F * F) : Prop :=
    let '(mean, m2, c1, c2) := s in f2e _ _ mean = Fin c /\ zr m2 /\ zr c1 /\ zr c2.


  Lemma stp_const k x c s : (0 < k)%Z -> f2e _ _ (up x) = Fin c -> cst c s -> cst c (stp k s x).
  Proof.
    intros Hk Ex. destruct s as [[[mean m2] c1] c2]. intros (E1 & E2 & E3 & E4).
    unfold stp, meanvar_step, compensated_update.
    cbn [a_add a_sub a_mul farith].
    pose proof (sub_same prec emax Hp He _ _ _ Ex E1) as D.
    pose proof (zero_div prec emax Hp He _ (k + 1) D ltac:(lia)) as Q.
    pose proof (sub_same prec emax Hp He _ _ _ Q E3) as Y.
    pose proof (add_zero_r prec emax Hp He _ _ _ E1 Y) as M1.
    pose proof (sub_same prec emax Hp He _ _ _ (sub_same prec emax Hp He _ _ _ M1 E1) Y) as C1.
    pose proof (mul_zero_r prec emax Hp He _ _ _ D (sub_same prec emax Hp He _ _ _ Ex M1)) as P.
    pose proof (sub_same prec emax Hp He _ _ _ P E4) as Y2.
    pose proof (add_zero_r prec emax Hp He _ _ _ E2 Y2) as M2.
    pose proof (sub_same prec emax Hp He _ _ _ (sub_same prec emax Hp He _ _ _ M2 E2) Y2) as C2.
    cbv beta iota zeta. unfold cst. repeat split; assumption.
  Qed.
  Lemma stp_const0 x c : f2e _ _ (up x) = Fin c -> cst c (stp 0 (mv_zero FA) x).
  Proof.
    intros Ex. pose proof (ofZ_0 prec emax Hp He) as Z0.
    unfold stp, mv_zero, meanvar_step, compensated_update.
    cbn [a_add a_sub a_mul farith]. change (0 + 1)%Z with 1%Z.
    pose proof (sub_zero prec emax Hp He _ _ _ Ex Z0) as D.
    pose proof (div_one prec emax Hp He _ _ D) as Q.
    pose proof (sub_zero prec emax Hp He _ _ _ Q Z0) as Y.
    pose proof (add_zero_l prec emax Hp He _ _ _ Z0 Y) as M1.
    pose proof (sub_same prec emax Hp He _ _ _ (sub_zero prec emax Hp He _ _ _ M1 Z0) Y) as C1.
    pose proof (mul_zero_r prec emax Hp He _ _ _ D (sub_same prec emax Hp He _ _ _ Ex M1)) as P.
    pose proof (sub_same prec emax Hp He _ _ _ P Z0) as Y2.
    pose proof (add_zero_r prec emax Hp He _ _ _ Z0 Y2) as M2.
    pose proof (sub_same prec emax Hp He _ _ _ (sub_same prec emax Hp He _ _ _ M2 Z0) Y2) as C2.
    cbv beta iota zeta. unfold cst. repeat split; assumption.
  Qed.
  Lemma foldi_const c : forall l k s, (0 < k)%Z -> (forall a, In a l -> f2e _ _ (up a) = Fin c) -> cst c s ->
    cst c (foldi stp k l s).
  Proof.
    induction l as [|x l IH]; intros k s Hk H C; [exact C|]. cbn [foldi]. apply IH; [lia| |].
    - intros a Ha. apply H. right; exact Ha.
    - apply stp_const; [exact Hk|apply H; left; reflexivity|exact C].
  Qed.

  Theorem meanvar_const mx px sx x ddof mo po so c :
    view mx px sx x -> writable mo po so 2 -> x <> [] -> (forall a, In a x -> f2e _ _ (up a) = Fin c) ->
    Z.of_nat (length x) <> ddof ->
    exists mean var, writes (meanvar_core FA up (Z.of_nat (length x)) mx px sx ddof mo po so) mo po so [mean; var] /\
      f2e _ _ mean = Fin c /\ f2e _ _ var = Fin 0.
  Proof.
    intros V W Hx H Hd. pose proof (meanvar_fold FA up mx px sx x ddof mo po so V W) as K.
    destruct x as [|x0 x]; [congruence|].
    assert (C : cst c (foldi stp 0 (x0 :: x) (mv_zero FA))).
    { cbn [foldi]. apply foldi_const; [lia| |].
      - intros a Ha. apply H. right; exact Ha.
      - apply stp_const0. apply H. left; reflexivity. }
    unfold stp in C. destruct (foldi _ 0%Z (x0 :: x) (mv_zero FA)) as [[[mean m2] c1] c2].
    destruct C as (C1 & C2 & _ & _). exists mean, (a_div FA m2 (a_ofZ FA (Z.of_nat (length (x0 :: x)) - ddof))).
    split; [exact K|]. split; [exact C1|]. apply (zero_div prec emax Hp He); [exact C2|lia].
  Qed.
End IEEE.
