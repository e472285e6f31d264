(** Proofs about [Num]: the comparison laws hold for integers, extended reals and IEEE floats. *)
From Coq Require Import ZArith Reals List Bool Lia Lra.
From Flocq Require Import Core BinarySingleNaN.
From Verif Require Import CSem Num.
Open Scope Z_scope.

Lemma Zcmp_laws : cmp_laws Zcmp.
Proof.
  unfold Zcmp. constructor.
  - intros x y; simpl. rewrite Z.compare_antisym. reflexivity.
  - intros x. rewrite Z.compare_refl. left; reflexivity.
  - intros x y. split; [discriminate|]. intros [H|H]; discriminate.
  - intros x y z H1 H2. injection H1 as H1. injection H2 as H2. f_equal.
    rewrite Z.compare_lt_iff in *. lia.
  - intros x y z H. injection H as H. apply Z.compare_eq in H. subst. reflexivity.
Qed.

Lemma ecmp_laws : cmp_laws ecmp.
Proof.
  constructor.
  - intros [a| | |] [b| | |]; simpl; try reflexivity.
    f_equal. apply Rcompare_sym.
  - intros [a| | |]; simpl; auto. left. f_equal. apply Rcompare_Eq. reflexivity.
  - intros [a| | |] [b| | |]; simpl; split; intros H; auto;
      try discriminate; try (destruct H; discriminate); auto.
  - intros [a| | |] [b| | |] [c| | |]; simpl; try discriminate; try reflexivity.
    intros H1 H2. injection H1 as H1. injection H2 as H2. f_equal.
    apply Rcompare_Lt_inv in H1. apply Rcompare_Lt_inv in H2. apply Rcompare_Lt. lra.
  - intros [a| | |] [b| | |] [c| | |]; simpl; try discriminate; try reflexivity;
    intros H; injection H as H; apply Rcompare_Eq_inv in H; subst; reflexivity.
Qed.

Section F.
  Context (prec emax : Z).
  Context (Hp : Prec_gt_0 prec) (He : Prec_lt_emax prec emax).
  Notation F := (binary_float prec emax).

  Lemma f2e_finite (x : F) : is_finite x = true -> f2e prec emax x = Fin (B2R x).
  Proof. destruct x as [s|s| |s m e H]; simpl; try discriminate; reflexivity. Qed.

  Lemma Bcompare_f2e (x y : F) : Bcompare x y = ecmp (f2e _ _ x) (f2e _ _ y).
  Proof.
    destruct (is_finite x) eqn:Fx, (is_finite y) eqn:Fy.
    - rewrite (Bcompare_correct prec emax x y Fx Fy).
      rewrite (f2e_finite x Fx), (f2e_finite y Fy). reflexivity.
    - rewrite (f2e_finite x Fx).
      destruct x as [s|s| |s m e H]; try discriminate;
      destruct y as [t|[]| |t m' e' H']; try discriminate; reflexivity.
    - rewrite (f2e_finite y Fy).
      destruct y as [s|s| |s m e H]; try discriminate;
      destruct x as [t|[]| |t m' e' H']; try discriminate; reflexivity.
    - destruct x as [s|[]| |s m e H]; try discriminate;
      destruct y as [t|[]| |t m' e' H']; try discriminate; reflexivity.
  Qed.

  Lemma Bcompare_laws : cmp_laws (@Bcompare prec emax).
  Proof.
    destruct ecmp_laws as [A B C D E].
    constructor; intros; rewrite ?Bcompare_f2e in *; eauto.
  Qed.

  Lemma isnan_f (x : F) : isnanb (@Bcompare prec emax) x = is_nan x.
  Proof.
    unfold isnanb. rewrite Bcompare_f2e.
    destruct x as [s|[]| |s m e H]; simpl; try reflexivity;
    rewrite ?(Rcompare_Eq _ _ eq_refl); reflexivity.
  Qed.
End F.

(** ** Consequences of the laws *)
Section Laws.
  Context {T : Type} (cmp : T -> T -> option comparison) (L : cmp_laws cmp).
  Notation lt := (ltb cmp). Notation le := (leb cmp). Notation eq := (eqb cmp).
  Notation nan := (isnanb cmp).

  Lemma isnan_none x : nan x = true <-> cmp x x = None.
  Proof. unfold isnanb. destruct (cmp x x); split; congruence. Qed.

  Lemma notnan_eq x : nan x = false <-> cmp x x = Some Eq.
  Proof.
    unfold isnanb. destruct (cmp_refl _ L x) as [E|E]; rewrite E; split; congruence.
  Qed.

  Lemma cmp_some x y : nan x = false -> nan y = false -> exists c, cmp x y = Some c.
  Proof.
    intros Hx Hy. destruct (cmp x y) eqn:E; [eauto|].
    apply (cmp_none _ L) in E. rewrite <- !isnan_none in E. destruct E; congruence.
  Qed.

  Lemma cmp_nan_l x y : nan x = true -> cmp x y = None.
  Proof. rewrite isnan_none. intros H. apply (cmp_none _ L). auto. Qed.
  Lemma cmp_nan_r x y : nan y = true -> cmp x y = None.
  Proof. rewrite isnan_none. intros H. apply (cmp_none _ L). auto. Qed.

  Lemma cmp_Some_notnan x y c : cmp x y = Some c -> nan x = false /\ nan y = false.
  Proof.
    intros H. split.
    - destruct (nan x) eqn:E; [|reflexivity]. rewrite (cmp_nan_l x y E) in H. discriminate.
    - destruct (nan y) eqn:E; [|reflexivity]. rewrite (cmp_nan_r x y E) in H. discriminate.
  Qed.

  Lemma gtb_ltb x y : gtb cmp x y = lt y x.
  Proof.
    unfold gtb, ltb. rewrite (cmp_swap _ L x y). destruct (cmp x y) as [[]|]; reflexivity.
  Qed.
  Lemma geb_leb x y : geb cmp x y = le y x.
  Proof.
    unfold geb, leb. rewrite (cmp_swap _ L x y). destruct (cmp x y) as [[]|]; reflexivity.
  Qed.
  Lemma eqb_sym x y : eq x y = eq y x.
  Proof.
    unfold eqb. rewrite (cmp_swap _ L x y). destruct (cmp x y) as [[]|]; reflexivity.
  Qed.
  Lemma cmp_eq_sym x y : cmp x y = Some Eq -> cmp y x = Some Eq.
  Proof. intros H. rewrite (cmp_swap _ L x y), H. reflexivity. Qed.
  Lemma cmp_lt_gt x y : cmp x y = Some Lt <-> cmp y x = Some Gt.
  Proof.
    rewrite (cmp_swap _ L x y). destruct (cmp x y) as [[]|]; simpl; split; congruence.
  Qed.
  Lemma cmp_eq_r x y z : cmp x y = Some Eq -> cmp z x = cmp z y.
  Proof.
    intros H. rewrite (cmp_swap _ L x z), (cmp_swap _ L y z).
    f_equal. apply (cmp_eq_l _ L). assumption.
  Qed.

  Lemma eqb_trans x y z : eq x y = true -> eq y z = true -> eq x z = true.
  Proof.
    unfold eqb. intros H1 H2.
    destruct (cmp x y) as [[]|] eqn:E; try discriminate.
    rewrite (cmp_eq_l _ L x y z E). assumption.
  Qed.
  Lemma ltb_trans x y z : lt x y = true -> lt y z = true -> lt x z = true.
  Proof.
    unfold ltb. intros H1 H2.
    destruct (cmp x y) as [[]|] eqn:E1; try discriminate.
    destruct (cmp y z) as [[]|] eqn:E2; try discriminate.
    rewrite (cmp_lt_trans _ L x y z E1 E2). reflexivity.
  Qed.
  Lemma leb_trans x y z : le x y = true -> le y z = true -> le x z = true.
  Proof.
    unfold leb. intros H1 H2.
    destruct (cmp x y) as [[]|] eqn:E1; try discriminate;
    destruct (cmp y z) as [[]|] eqn:E2; try discriminate.
    - rewrite (cmp_eq_l _ L x y z E1), E2. reflexivity.
    - rewrite (cmp_eq_l _ L x y z E1), E2. reflexivity.
    - rewrite <- (cmp_eq_r y z x E2), E1. reflexivity.
    - rewrite (cmp_lt_trans _ L x y z E1 E2). reflexivity.
  Qed.
  Lemma leb_refl x : nan x = false -> le x x = true.
  Proof. intros H. apply notnan_eq in H. unfold leb. rewrite H. reflexivity. Qed.
  Lemma ltb_irrefl x : lt x x = false.
  Proof. unfold ltb. destruct (cmp_refl _ L x) as [E|E]; rewrite E; reflexivity. Qed.
  Lemma ltb_leb x y : lt x y = true -> le x y = true.
  Proof. unfold ltb, leb. destruct (cmp x y) as [[]|]; congruence. Qed.
  Lemma eqb_leb x y : eq x y = true -> le x y = true.
  Proof. unfold eqb, leb. destruct (cmp x y) as [[]|]; congruence. Qed.
  Lemma le_lt_trans x y z : le x y = true -> lt y z = true -> lt x z = true.
  Proof.
    unfold leb, ltb. intros H1 H2.
    destruct (cmp y z) as [[]|] eqn:E2; try discriminate.
    destruct (cmp x y) as [[]|] eqn:E1; try discriminate.
    - rewrite (cmp_eq_l _ L x y z E1), E2. reflexivity.
    - rewrite (cmp_lt_trans _ L x y z E1 E2). reflexivity.
  Qed.
  Lemma lt_le_trans x y z : lt x y = true -> le y z = true -> lt x z = true.
  Proof.
    unfold leb, ltb. intros H1 H2.
    destruct (cmp x y) as [[]|] eqn:E1; try discriminate.
    destruct (cmp y z) as [[]|] eqn:E2; try discriminate.
    - rewrite <- (cmp_eq_r y z x E2), E1. reflexivity.
    - rewrite (cmp_lt_trans _ L x y z E1 E2). reflexivity.
  Qed.
  Lemma not_lt_le x y : nan x = false -> nan y = false -> lt x y = false -> le y x = true.
  Proof.
    intros Hx Hy H. destruct (cmp_some x y Hx Hy) as [c E].
    unfold ltb in H. unfold leb. rewrite (cmp_swap _ L x y), E in *.
    destruct c; simpl; congruence.
  Qed.
  Lemma lt_not_le x y : lt x y = true -> le y x = false.
  Proof.
    unfold ltb, leb. rewrite (cmp_swap _ L x y). destruct (cmp x y) as [[]|]; simpl; congruence.
  Qed.
  Lemma le_not_lt x y : le x y = true -> lt y x = false.
  Proof.
    unfold ltb, leb. rewrite (cmp_swap _ L x y). destruct (cmp x y) as [[]|]; simpl; congruence.
  Qed.
  Lemma le_antisym x y : le x y = true -> le y x = true -> eq x y = true.
  Proof.
    unfold leb, eqb. rewrite (cmp_swap _ L x y). destruct (cmp x y) as [[]|]; simpl; congruence.
  Qed.
  Lemma ltb_notnan x y : lt x y = true -> nan x = false /\ nan y = false.
  Proof.
    unfold ltb. destruct (cmp x y) as [c|] eqn:E; [|discriminate].
    intros _. eapply cmp_Some_notnan; eauto.
  Qed.
  Lemma leb_notnan x y : le x y = true -> nan x = false /\ nan y = false.
  Proof.
    unfold leb. destruct (cmp x y) as [c|] eqn:E; [|discriminate].
    intros _. eapply cmp_Some_notnan; eauto.
  Qed.
  Lemma eqb_notnan x y : eq x y = true -> nan x = false /\ nan y = false.
  Proof.
    unfold eqb. destruct (cmp x y) as [c|] eqn:E; [|discriminate].
    intros _. eapply cmp_Some_notnan; eauto.
  Qed.
  Lemma ltb_nan_l x y : nan x = true -> lt x y = false.
  Proof. intros H. unfold ltb. rewrite cmp_nan_l; auto. Qed.
  Lemma ltb_nan_r x y : nan y = true -> lt x y = false.
  Proof. intros H. unfold ltb. rewrite cmp_nan_r; auto. Qed.
  Lemma leb_nan_l x y : nan x = true -> le x y = false.
  Proof. intros H. unfold leb. rewrite cmp_nan_l; auto. Qed.
  Lemma leb_nan_r x y : nan y = true -> le x y = false.
  Proof. intros H. unfold leb. rewrite cmp_nan_r; auto. Qed.
  Lemma eqb_nan_l x y : nan x = true -> eq x y = false.
  Proof. intros H. unfold eqb. rewrite cmp_nan_l; auto. Qed.
  Lemma eqb_nan_r x y : nan y = true -> eq x y = false.
  Proof. intros H. unfold eqb. rewrite cmp_nan_r; auto. Qed.
  Lemma leb_lt_or_eq x y : le x y = lt x y || eq x y.
  Proof. unfold leb, ltb, eqb. destruct (cmp x y) as [[]|]; reflexivity. Qed.
End Laws.

(** ** Real comparisons inside [ER] *)
Lemma ltb_Fin a b : ltb ecmp (Fin a) (Fin b) = true <-> (a < b)%R.
Proof.
  unfold ltb; simpl. destruct (Rcompare_spec a b); split; intros; try discriminate; try lra; reflexivity.
Qed.
Lemma leb_Fin a b : leb ecmp (Fin a) (Fin b) = true <-> (a <= b)%R.
Proof.
  unfold leb; simpl. destruct (Rcompare_spec a b); split; intros; try discriminate; try lra; reflexivity.
Qed.
Lemma gtb_Fin a b : gtb ecmp (Fin a) (Fin b) = true <-> (a > b)%R.
Proof.
  unfold gtb; simpl. destruct (Rcompare_spec a b); split; intros; try discriminate; try lra; reflexivity.
Qed.
Lemma geb_Fin a b : geb ecmp (Fin a) (Fin b) = true <-> (a >= b)%R.
Proof.
  unfold geb; simpl. destruct (Rcompare_spec a b); split; intros; try discriminate; try lra; reflexivity.
Qed.
Lemma eqb_Fin a b : eqb ecmp (Fin a) (Fin b) = true <-> a = b.
Proof.
  unfold eqb; simpl. destruct (Rcompare_spec a b); split; intros; try discriminate; try lra; reflexivity.
Qed.
Lemma isnanb_Fin a : isnanb ecmp (Fin a) = false.
Proof. unfold isnanb; simpl. reflexivity. Qed.

Ltac bool_false_iff H := rewrite <- not_true_iff_false, H.
Lemma ltb_Fin_false a b : ltb ecmp (Fin a) (Fin b) = false <-> (b <= a)%R.
Proof. bool_false_iff (ltb_Fin a b). split; intros; lra. Qed.
Lemma leb_Fin_false a b : leb ecmp (Fin a) (Fin b) = false <-> (b < a)%R.
Proof. bool_false_iff (leb_Fin a b). split; intros; lra. Qed.
Lemma gtb_Fin_false a b : gtb ecmp (Fin a) (Fin b) = false <-> (a <= b)%R.
Proof. bool_false_iff (gtb_Fin a b). split; intros; lra. Qed.
Lemma geb_Fin_false a b : geb ecmp (Fin a) (Fin b) = false <-> (a < b)%R.
Proof. bool_false_iff (geb_Fin a b). split; intros; lra. Qed.
Lemma eqb_Fin_false a b : eqb ecmp (Fin a) (Fin b) = false <-> a <> b.
Proof. bool_false_iff (eqb_Fin a b). tauto. Qed.

Lemma ediv_Fin a b : b <> 0%R -> ediv (Fin a) (Fin b) = Fin (a / b).
Proof.
  intros H. simpl. destruct (Rcompare_spec b 0); try reflexivity. contradiction.
Qed.
Lemma esqrt_Fin a : (0 <= a)%R -> esqrt (Fin a) = Fin (sqrt a).
Proof. intros H. simpl. destruct (Rcompare_spec a 0); try reflexivity. lra. Qed.
