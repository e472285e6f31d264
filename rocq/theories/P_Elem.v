(** * P_Elem: NaN behaviour of the elementwise functions, deadzone, trapezoid_pulse,
    hypot3, nan_to_num, abs_squared, abssq *)
From Coq Require Import ZArith Reals List Bool Lra Lia Psatz.
From Flocq Require Import Core BinarySingleNaN.
From Verif Require Import CSem CSemP Num NumP NumF NumX S_Stat M_Elem S_Elem P_Soft.
Import ListNotations.
Open Scope R_scope.

(** ** NaN propagation *)
Lemma nan_prop_e : nan_prop earith.
Proof.
  split; cbn [earith a_cmp a_add a_sub a_mul a_div a_opp a_sqrt a_nan]; [reflexivity|..];
    try (intros [r| | |] [s| | |]; cbn; intros [H|H]; try discriminate; try reflexivity;
         rewrite ?isnanb_Fin in H; discriminate).
  all: intros [r| | |] H; cbn in *; try reflexivity; try discriminate; rewrite ?isnanb_Fin in H; discriminate.
Qed.

Lemma nan_prop_f prec emax Hp He : nan_prop (farith prec emax Hp He).
Proof.
  split; cbn [farith a_cmp a_add a_sub a_mul a_div a_opp a_sqrt a_nan]; [reflexivity|..].
  1-4: intros x y; rewrite !isnan_f; intros [H|H]; [destruct x|destruct y]; try discriminate;
    try reflexivity; destruct x; reflexivity.
  all: intros x; rewrite !isnan_f; intros H; destruct x; try discriminate; reflexivity.
Qed.

Section Nan.
  Context {T : Type} (A : arith T) (L : cmp_laws (a_cmp A)) (N : nan_prop A).
  Local Notation nan x := (isnanb (a_cmp A) x = true).
  Local Notation lt := (ltb (a_cmp A)).
  Local Notation le := (leb (a_cmp A)).
  Local Notation gt := (gtb (a_cmp A)).
  Local Notation ge := (geb (a_cmp A)).
  Local Notation eq := (eqb (a_cmp A)).

  Lemma gt_nan_l x y : nan x -> gt x y = false.
  Proof. intros H. rewrite gtb_ltb by exact L. apply (ltb_nan_r _ L). exact H. Qed.
  Lemma gt_nan_r x y : nan y -> gt x y = false.
  Proof. intros H. rewrite gtb_ltb by exact L. apply (ltb_nan_l _ L). exact H. Qed.
  Lemma ge_nan_l x y : nan x -> ge x y = false.
  Proof. intros H. rewrite geb_leb by exact L. apply (leb_nan_r _ L). exact H. Qed.
  Lemma ge_nan_r x y : nan y -> ge x y = false.
  Proof. intros H. rewrite geb_leb by exact L. apply (leb_nan_l _ L). exact H. Qed.

  Ltac np := repeat first
    [ assumption
    | apply (np_nan A N)
    | match goal with |- isnanb _ (a_add A ?x ?y) = true => apply (np_add A N) end
    | match goal with |- isnanb _ (a_sub A ?x ?y) = true => apply (np_sub A N) end
    | match goal with |- isnanb _ (a_mul A ?x ?y) = true => apply (np_mul A N) end
    | match goal with |- isnanb _ (a_div A ?x ?y) = true => apply (np_div A N) end
    | match goal with |- isnanb _ (a_opp A ?x) = true => apply (np_opp A N) end
    | match goal with |- isnanb _ (a_sqrt A ?x) = true => apply (np_sqrt A N) end ].

  Let u_nan x a b : nan x \/ nan a \/ nan b -> nan (a_div A (a_sub A x a) (a_sub A b a)).
  Proof.
    intros [H|[H|H]]; apply (np_div A N).
    - left. np. left. np.
    - left. np. right. np.
    - right. np. left. np.
  Qed.

  (** steps: with a > b the result is NaN; otherwise fa and fb are returned
      unchanged outside (a, b); a NaN among x, a, b gives NaN in the remaining cases
      except for a == b *)
  Lemma steps_gt x a b fa fb : gt a b = true ->
    nan (linearstep A x a b fa fb) /\ nan (smoothstep3 A x a b fa fb) /\ nan (smoothstep5 A x a b fa fb).
  Proof. intros H. unfold linearstep, smoothstep3, smoothstep5. rewrite H. repeat split; apply (np_nan A N). Qed.

  Lemma steps_ends x a b fa fb : gt a b = false ->
    (le x a = true -> linearstep A x a b fa fb = fa /\ smoothstep3 A x a b fa fb = fa /\ smoothstep5 A x a b fa fb = fa) /\
    (le x a = false -> ge x b = true ->
       linearstep A x a b fa fb = fb /\ smoothstep3 A x a b fa fb = fb /\ smoothstep5 A x a b fa fb = fb).
  Proof.
    intros H. unfold linearstep, smoothstep3, smoothstep5. rewrite H.
    split; [intros ->; auto|intros -> ->; auto].
  Qed.

  Lemma steps_nan x a b fa fb : nan x \/ nan a \/ nan b -> eq a b = false -> le x a = false -> ge x b = false ->
    nan (linearstep A x a b fa fb) /\ nan (smoothstep3 A x a b fa fb) /\ nan (smoothstep5 A x a b fa fb).
  Proof.
    intros Hn He Hl Hg. unfold linearstep, smoothstep3, smoothstep5.
    destruct (gt a b); [repeat split; apply (np_nan A N)|].
    rewrite Hl, Hg, He. cbv zeta. pose proof (u_nan x a b Hn) as U. repeat split.
    - np. right. np. right. exact U.
    - np. right. np. left. np. right. exact U.
    - np. right. np. left. np. right. exact U.
  Qed.

  Lemma steps_nan_x x a b fa fb : nan x -> eq a b = false ->
    nan (linearstep A x a b fa fb) /\ nan (smoothstep3 A x a b fa fb) /\ nan (smoothstep5 A x a b fa fb).
  Proof.
    intros Hx He. apply steps_nan; [left; exact Hx|exact He| |].
    - apply (leb_nan_l _ L), Hx.
    - apply ge_nan_l, Hx.
  Qed.

  (** step: NaN in x or a selects the middle value *)
  Lemma step_nan x a flow fa fhigh : nan x \/ nan a -> step A x a flow fa fhigh = fa.
  Proof.
    intros H. unfold step.
    replace (lt x a) with false by (symmetry; destruct H as [H|H]; [apply (ltb_nan_l _ L)|apply (ltb_nan_r _ L)]; exact H).
    replace (gt x a) with false by (symmetry; destruct H as [H|H]; [apply gt_nan_l|apply gt_nan_r]; exact H).
    reflexivity.
  Qed.

  Lemma step_cases x a flow fa fhigh :
    (lt x a = true -> step A x a flow fa fhigh = flow) /\
    (eq x a = true -> step A x a flow fa fhigh = fa) /\
    (lt a x = true -> step A x a flow fa fhigh = fhigh).
  Proof.
    unfold step. repeat split; intros H.
    - rewrite H. reflexivity.
    - replace (lt x a) with false by (unfold ltb, eqb in *; destruct (a_cmp A x a) as [[]|]; congruence).
      replace (gt x a) with false by (unfold gtb, eqb in *; destruct (a_cmp A x a) as [[]|]; congruence).
      reflexivity.
    - rewrite gtb_ltb by exact L. rewrite H.
      rewrite (le_not_lt _ L a x) by (apply ltb_leb; exact H). reflexivity.
  Qed.

  (** step is monotone when its three values are ordered, in any arithmetic *)
  Lemma step_monotone x y a flow fa fhigh :
    isnanb (a_cmp A) a = false ->
    le flow fa = true -> le fa fhigh = true -> le x y = true ->
    le (step A x a flow fa fhigh) (step A y a flow fa fhigh) = true.
  Proof.
    intros Na H1 H2 H. destruct (leb_notnan _ L _ _ H) as [Nx Ny].
    destruct (leb_notnan _ L _ _ H1) as [Nl Nm]. destruct (leb_notnan _ L _ _ H2) as [_ Nh].
    unfold step. rewrite !gtb_ltb by exact L.
    destruct (lt x a) eqn:E1.
    - destruct (lt y a); [apply (leb_refl _ L); exact Nl|].
      destruct (lt a y); [apply (leb_trans _ L _ fa); assumption|exact H1].
    - pose proof (not_lt_le _ L _ _ Nx Na E1) as G.
      assert (lt y a = false) as -> by (apply (le_not_lt _ L); apply (leb_trans _ L _ x); assumption).
      destruct (lt a x) eqn:E2.
      + rewrite (lt_le_trans _ L a x y) by assumption. apply (leb_refl _ L); exact Nh.
      + destruct (lt a y); [exact H2|apply (leb_refl _ L); exact Nm].
  Qed.

  (** trapezoid_pulse: NaN in x or in the corner parameters gives NaN *)
  Lemma trapezoid_nan x a b c d amp : nan x \/ nan a \/ nan b \/ nan c \/ nan d ->
    nan (trapezoid_pulse A x a b c d amp).
  Proof.
    intros H. unfold trapezoid_pulse.
    destruct (le a b) eqn:E1; [|apply (np_nan A N)].
    destruct (le b c) eqn:E2; [|apply (np_nan A N)].
    destruct (le c d) eqn:E3; [|apply (np_nan A N)].
    destruct (leb_notnan _ L _ _ E1) as [Na Nb]. destruct (leb_notnan _ L _ _ E3) as [Nc Nd].
    assert (Hx : nan x) by (destruct H as [H|[H|[H|[H|H]]]]; congruence).
    cbn [andb negb]. rewrite (leb_nan_l _ L), !ge_nan_l, (ltb_nan_l _ L) by exact Hx. cbn [orb andb].
    np. right. np. left. np. right. exact Hx.
  Qed.

  (** deadzone maps a NaN x to 0 *)
  Lemma deadzone_nan x low high : nan x -> deadzone A x low high = a_ofZ A 0.
  Proof.
    intros H. unfold deadzone. rewrite (ltb_nan_l _ L) by exact H. rewrite gt_nan_l by exact H. reflexivity.
  Qed.

  Lemma nan_to_num_spec x r :
    (nan x -> nan_to_num A x r = r) /\ (isnanb (a_cmp A) x = false -> nan_to_num A x r = x).
  Proof. unfold nan_to_num. split; intros ->; reflexivity. Qed.

  Lemma hypot3_spec hypot x y z :
    (a_isinf A x = true \/ a_isinf A y = true \/ a_isinf A z = true -> hypot3 A hypot x y z = a_inf A) /\
    (a_isinf A x = false -> a_isinf A y = false -> a_isinf A z = false -> hypot3 A hypot x y z = hypot x y z).
  Proof.
    unfold hypot3. split.
    - intros H. destruct (a_isinf A x); [reflexivity|]. destruct (a_isinf A y); [reflexivity|].
      destruct (a_isinf A z); [reflexivity|]. destruct H as [H|[H|H]]; discriminate.
    - intros -> -> ->. reflexivity.
  Qed.

  (** semivariograms: a NaN lag gives NaN *)
  Lemma hypot3_nan hypot x y z :
    (nan x \/ nan y \/ nan z -> nan (hypot x y z)) ->
    nan x \/ nan y \/ nan z ->
    a_isinf A x = false -> a_isinf A y = false -> a_isinf A z = false -> nan (hypot3 A hypot x y z).
  Proof. intros Hh H Hx Hy Hz. unfold hypot3. rewrite Hx, Hy, Hz. exact (Hh H). Qed.

  Lemma semivar_nan TR h nugget sill range : nan h ->
    (forall x, nan x -> nan (t_exp TR x)) ->
    nan (semivar_exponential A TR h nugget sill range) /\ nan (semivar_linear A h nugget sill range) /\
    nan (semivar_spherical A h nugget sill range) /\ nan (semivar_parabolic A h nugget sill range).
  Proof.
    intros H He. unfold semivar_exponential, semivar_linear, semivar_spherical, semivar_parabolic.
    rewrite gt_nan_l by exact H. cbv zeta.
    assert (Hh : nan (a_div A h range)) by (np; left; exact H).
    repeat split.
    - np. right. np. right. np. right. apply He. np. left. np. right. exact H.
    - np. right. np. right. exact H.
    - np. right. np. right. np. right. np. left. exact Hh.
    - np. right. np. right. np. right. exact Hh.
  Qed.
End Nan.

(** ** deadzone on the reals *)
Definition rdead (low high x : R) : R := if Rlt_dec x low then x - low else if Rlt_dec high x then x - high else 0.

Lemma deadzone_val x low high : deadzone earith (Fin x) (Fin low) (Fin high) = Fin (rdead low high x).
Proof.
  unfold deadzone, rdead. cbn [earith a_cmp a_sub a_ofZ].
  destruct (ltb ecmp (Fin x) (Fin low)) eqn:E1.
  - apply ltb_Fin in E1. destruct (Rlt_dec x low); [reflexivity|lra].
  - apply ltb_Fin_false in E1. destruct (Rlt_dec x low); [lra|].
    destruct (gtb ecmp (Fin x) (Fin high)) eqn:E2.
    + apply gtb_Fin in E2. destruct (Rlt_dec high x); [reflexivity|lra].
    + apply gtb_Fin_false in E2. destruct (Rlt_dec high x); [lra|reflexivity].
Qed.

Lemma deadzone_shape low high : low <= high ->
  exists f, computes (fun x => deadzone earith x (Fin low) (Fin high)) f /\
    (forall x, low <= x <= high -> f x = 0) /\
    (forall x, high <= x -> f x = x - high) /\ (forall x, x <= low -> f x = x - low) /\
    nondecreasing f /\ (forall x y, Rabs (f x - f y) <= Rabs (x - y)) /\
    (forall x, Rabs (f x) <= Rmax 0 (Rmax (low - x) (x - high))).
Proof.
  intros H. exists (rdead low high). split; [intros x; apply deadzone_val|].
  unfold nondecreasing, rdead. repeat split.
  - intros x Hx. destruct (Rlt_dec x low), (Rlt_dec high x); lra.
  - intros x Hx. destruct (Rlt_dec x low), (Rlt_dec high x); lra.
  - intros x Hx. destruct (Rlt_dec x low), (Rlt_dec high x); lra.
  - intros x y Hx. destruct (Rlt_dec x low), (Rlt_dec high x), (Rlt_dec y low), (Rlt_dec high y); lra.
  - intros x y. destruct (Rlt_dec x low), (Rlt_dec high x), (Rlt_dec y low), (Rlt_dec high y);
      unfold Rabs; repeat destruct Rcase_abs; lra.
  - intros x. unfold Rmax. destruct (Rlt_dec x low), (Rlt_dec high x);
      unfold Rabs; repeat destruct Rcase_abs; repeat destruct Rle_dec; lra.
Qed.

(** ** trapezoid_pulse on the reals *)
Definition rtrap (a b c d amp x : R) : R :=
  if Rle_dec x a then 0 else if Rle_dec d x then 0
  else if Rlt_dec x b then amp * ((x - a) / (b - a))
  else if Rle_dec x c then amp else amp * ((d - x) / (d - c)).

Lemma trapezoid_val a b c d amp x : a <= b -> b <= c -> c <= d ->
  trapezoid_pulse earith (Fin x) (Fin a) (Fin b) (Fin c) (Fin d) (Fin amp) = Fin (rtrap a b c d amp x).
Proof.
  intros H1 H2 H3. unfold trapezoid_pulse, rtrap. cbn [earith a_cmp a_sub a_ofZ a_mul a_div].
  rewrite !(proj2 (leb_Fin _ _)) by assumption. cbn [andb negb].
  destruct (leb ecmp (Fin x) (Fin a)) eqn:E1.
  { apply leb_Fin in E1. destruct (Rle_dec x a); [reflexivity|lra]. }
  apply leb_Fin_false in E1. destruct (Rle_dec x a); [lra|].
  destruct (geb ecmp (Fin x) (Fin d)) eqn:E2.
  { apply geb_Fin in E2. destruct (Rle_dec d x); [reflexivity|lra]. }
  apply geb_Fin_false in E2. destruct (Rle_dec d x); [lra|]. cbn [orb].
  destruct (geb ecmp (Fin x) (Fin b)) eqn:E3.
  - apply geb_Fin in E3. destruct (leb ecmp (Fin x) (Fin c)) eqn:E4; cbn [andb].
    + apply leb_Fin in E4. destruct (Rlt_dec x b); [lra|]. destruct (Rle_dec x c); [reflexivity|lra].
    + apply leb_Fin_false in E4. rewrite (proj2 (ltb_Fin_false _ _)) by lra.
      destruct (Rlt_dec x b); [lra|]. destruct (Rle_dec x c); [lra|].
      cbn [esub eopp eadd]. rewrite ediv_Fin by lra. reflexivity.
  - apply geb_Fin_false in E3. cbn [andb]. rewrite (proj2 (ltb_Fin _ _)) by lra.
    destruct (Rlt_dec x b); [|lra]. cbn [esub eopp eadd]. rewrite ediv_Fin by lra. reflexivity.
Qed.

Lemma frac01 p q : 0 < p -> p < q -> 0 < p / q < 1.
Proof.
  intros H1 H2. split; [apply Rdiv_lt_0_compat; lra|].
  apply Rmult_lt_reg_r with q; [lra|]. unfold Rdiv. rewrite Rmult_assoc, Rinv_l by lra. lra.
Qed.
Lemma frac_mono p p' q : p <= p' -> 0 < q -> p / q <= p' / q.
Proof. intros H1 H2. apply Rmult_le_compat_r; [left; apply Rinv_0_lt_compat; lra|lra]. Qed.

Lemma trapezoid_shape a b c d amp : a <= b -> b <= c -> c <= d ->
  exists f, computes (fun x => trapezoid_pulse earith x (Fin a) (Fin b) (Fin c) (Fin d) (Fin amp)) f /\
    (forall x, x <= a \/ d <= x -> f x = 0) /\
    (forall x, a < x < d -> b <= x <= c -> f x = amp) /\
    (forall x, a < x < b -> exists t, 0 < t < 1 /\ x = a + t * (b - a) /\ f x = t * amp) /\
    (forall x, c < x < d -> exists t, 0 < t < 1 /\ x = d - t * (d - c) /\ f x = t * amp) /\
    (forall x, Rmin 0 amp <= f x <= Rmax 0 amp) /\
    (0 <= amp -> forall x y, x <= y -> y <= c -> y < d -> f x <= f y) /\
    (0 <= amp -> forall x y, b <= x -> a < x -> x <= y -> f y <= f x).
Proof.
  intros H1 H2 H3. exists (rtrap a b c d amp). split; [intros x; apply trapezoid_val; assumption|].
  unfold rtrap. repeat split.
  - intros x Hx. destruct (Rle_dec x a); [reflexivity|]. destruct (Rle_dec d x); [reflexivity|lra].
  - intros x Hx Hx'. destruct (Rle_dec x a); [lra|]. destruct (Rle_dec d x); [lra|].
    destruct (Rlt_dec x b); [lra|]. destruct (Rle_dec x c); [reflexivity|lra].
  - intros x Hx. destruct (Rle_dec x a); [lra|]. destruct (Rle_dec d x); [lra|]. destruct (Rlt_dec x b); [|lra].
    exists ((x - a) / (b - a)). split; [apply frac01; lra|]. split; [field; lra|ring].
  - intros x Hx. destruct (Rle_dec x a); [lra|]. destruct (Rle_dec d x); [lra|]. destruct (Rlt_dec x b); [lra|].
    destruct (Rle_dec x c); [lra|]. exists ((d - x) / (d - c)). split; [apply frac01; lra|]. split; [field; lra|ring].
  - unfold Rmin. destruct (Rle_dec x a), (Rle_dec d x), (Rlt_dec x b), (Rle_dec x c), (Rle_dec 0 amp); try lra.
    all: try (pose proof (frac01 (x - a) (b - a) ltac:(lra) ltac:(lra)); nra).
    all: pose proof (frac01 (d - x) (d - c) ltac:(lra) ltac:(lra)); nra.
  - unfold Rmax. destruct (Rle_dec x a), (Rle_dec d x), (Rlt_dec x b), (Rle_dec x c), (Rle_dec 0 amp); try lra.
    all: try (pose proof (frac01 (x - a) (b - a) ltac:(lra) ltac:(lra)); nra).
    all: pose proof (frac01 (d - x) (d - c) ltac:(lra) ltac:(lra)); nra.
  - intros Ha x y Hxy Hyc Hyd.
    destruct (Rle_dec x a), (Rle_dec d x), (Rlt_dec x b), (Rle_dec x c),
             (Rle_dec y a), (Rle_dec d y), (Rlt_dec y b), (Rle_dec y c); try lra.
    all: try (pose proof (frac01 (x - a) (b - a) ltac:(lra) ltac:(lra)); nra).
    all: try (pose proof (frac01 (y - a) (b - a) ltac:(lra) ltac:(lra)); nra).
    all: pose proof (frac_mono (x - a) (y - a) (b - a) ltac:(lra) ltac:(lra)); nra.
  - intros Ha x y Hbx Hax Hxy.
    destruct (Rle_dec x a), (Rle_dec d x), (Rlt_dec x b), (Rle_dec x c),
             (Rle_dec y a), (Rle_dec d y), (Rlt_dec y b), (Rle_dec y c); try lra.
    all: try (pose proof (frac01 (d - x) (d - c) ltac:(lra) ltac:(lra)); nra).
    all: try (pose proof (frac01 (d - y) (d - c) ltac:(lra) ltac:(lra)); nra).
    all: pose proof (frac_mono (d - y) (d - x) (d - c) ltac:(lra) ltac:(lra)); nra.
Qed.

Lemma trapezoid_bad x a b c d amp : ~ (a <= b /\ b <= c /\ c <= d) ->
  trapezoid_pulse earith x (Fin a) (Fin b) (Fin c) (Fin d) amp = ENaN.
Proof.
  intros H. unfold trapezoid_pulse. cbn [earith a_cmp a_nan].
  destruct (leb ecmp (Fin a) (Fin b)) eqn:E1; [|reflexivity]. apply leb_Fin in E1.
  destruct (leb ecmp (Fin b) (Fin c)) eqn:E2; [|reflexivity]. apply leb_Fin in E2.
  destruct (leb ecmp (Fin c) (Fin d)) eqn:E3; [|reflexivity]. apply leb_Fin in E3. tauto.
Qed.

(** ** deadzone in IEEE arithmetic: monotone, exact zeros inside *)
Section DeadF.
  Context (prec emax : Z) (Hp : Prec_gt_0 prec) (He : Prec_lt_emax prec emax).
  Notation F := (binary_float prec emax).
  Notation FA := (farith prec emax Hp He).
  Notation E := (f2e prec emax).
  Notation lef := (leb (@Bcompare prec emax)).

  Lemma minus_mono_sign (x l : F) : is_finite x = true -> is_finite l = true -> B2R x <= B2R l ->
    leb ecmp (E (Bminus mode_NE x l)) (Fin 0) = true.
  Proof.
    intros Fx Fl H. rewrite f2e_minus by assumption. rewrite <- (frnd_0 prec emax).
    apply (frnd_le prec emax Hp). lra.
  Qed.
  Lemma minus_mono_sign' (x l : F) : is_finite x = true -> is_finite l = true -> B2R l <= B2R x ->
    leb ecmp (Fin 0) (E (Bminus mode_NE x l)) = true.
  Proof.
    intros Fx Fl H. rewrite f2e_minus by assumption. rewrite <- (frnd_0 prec emax).
    apply (frnd_le prec emax Hp). lra.
  Qed.

  Lemma E_zero0 : E (a_ofZ FA 0) = Fin 0.
  Proof. apply ofZ_0. Qed.

  Lemma deadzone_F (x low high : F) : is_finite x = true -> is_finite low = true -> is_finite high = true ->
    E (deadzone FA x low high) =
      if Rlt_dec (B2R x) (B2R low) then frnd prec emax (B2R x - B2R low)
      else if Rlt_dec (B2R high) (B2R x) then frnd prec emax (B2R x - B2R high) else Fin 0.
  Proof.
    intros Fx Fl Fh. unfold deadzone. cbn [farith a_cmp a_sub].
    rewrite ltb_f, gtb_f. rewrite (f2e_finite _ _ x Fx), (f2e_finite _ _ low Fl), (f2e_finite _ _ high Fh).
    destruct (ltb ecmp (Fin (B2R x)) (Fin (B2R low))) eqn:E1.
    - apply ltb_Fin in E1. destruct (Rlt_dec (B2R x) (B2R low)); [|lra]. apply f2e_minus; assumption.
    - apply ltb_Fin_false in E1. destruct (Rlt_dec (B2R x) (B2R low)); [lra|].
      destruct (gtb ecmp (Fin (B2R x)) (Fin (B2R high))) eqn:E2.
      + apply gtb_Fin in E2. destruct (Rlt_dec (B2R high) (B2R x)); [|lra]. apply f2e_minus; assumption.
      + apply gtb_Fin_false in E2. destruct (Rlt_dec (B2R high) (B2R x)); [lra|]. apply E_zero0.
  Qed.

  Theorem deadzone_mono_F (x y low high : F) :
    is_finite x = true -> is_finite y = true -> is_finite low = true -> is_finite high = true ->
    lef low high = true -> lef x y = true ->
    lef (deadzone FA x low high) (deadzone FA y low high) = true.
  Proof.
    intros Fx Fy Fl Fh Hlh Hxy. rewrite leb_f in *. rewrite !deadzone_F by assumption.
    rewrite (f2e_finite _ _ low Fl), (f2e_finite _ _ high Fh) in Hlh. rewrite (f2e_finite _ _ x Fx), (f2e_finite _ _ y Fy) in Hxy. apply leb_Fin in Hlh. apply leb_Fin in Hxy.
    rewrite <- (frnd_0 prec emax).
    destruct (Rlt_dec (B2R x) (B2R low)), (Rlt_dec (B2R high) (B2R x)), (Rlt_dec (B2R y) (B2R low)), (Rlt_dec (B2R high) (B2R y));
      apply (frnd_le prec emax Hp); lra.
  Qed.
End DeadF.

(** ** hypot3 in exact arithmetic; std::hypot is the exact Euclidean norm *)

Lemma hypot3_exact x y z :
  hypot3 earith ehypot (Fin x) (Fin y) (Fin z) = Fin (sqrt (x ^ 2 + y ^ 2 + z ^ 2)).
Proof.
  unfold hypot3, ehypot. cbn [earith a_isinf eisinf orb emul eadd].
  rewrite esqrt_Fin by nra. f_equal. f_equal. ring.
Qed.

Lemma hypot3_sym x y z :
  hypot3 earith ehypot x y z = hypot3 earith ehypot y x z /\ hypot3 earith ehypot x y z = hypot3 earith ehypot x z y.
Proof.
  destruct x as [x| | |], y as [y| | |], z as [z| | |]; split; try reflexivity; rewrite ?hypot3_exact;
    try (f_equal; f_equal; ring).
  all: unfold hypot3, ehypot; cbn [earith a_isinf eisinf orb emul eadd eabs]; reflexivity.
Qed.

Lemma hypot3_abs x y z : hypot3 earith ehypot (eabs (Fin x)) (eabs (Fin y)) (eabs (Fin z)) = hypot3 earith ehypot (Fin x) (Fin y) (Fin z).
Proof.
  cbn [eabs]. rewrite !hypot3_exact. f_equal. f_equal.
  rewrite <- !Rsqr_pow2, <- !Rsqr_abs, !Rsqr_pow2. reflexivity.
Qed.

(** abs_squared(z) = z * conj(z): real part, and the imaginary part vanishes *)
Lemma abs_squared_exact a b :
  exists r, abs_squared_complex earith (Fin a, Fin b) = Fin r /\ cmulR (a, b) (conjR (a, b)) = (r, 0) /\
            0 <= r /\ (r = 0 <-> a = 0 /\ b = 0).
Proof.
  exists (a * a + b * b). split; [reflexivity|]. split; [unfold cmulR, conjR; cbn [fst snd]; f_equal; ring|].
  split; [nra|]. split; [intros H; split; nra|intros [-> ->]; ring].
Qed.

Lemma abs_squared_real_exact a :
  exists r, abs_squared_real earith (Fin a) = Fin r /\ 0 <= r /\ sqrt r = Rabs a.
Proof. exists (a * a). split; [reflexivity|]. split; [nra|]. apply (sqrt_Rsqr_abs a). Qed.

(** a real number and the complex number with imaginary part zero give the same bits *)
Section AbsSquaredF.
  Context (prec emax : Z) (Hp : Prec_gt_0 prec) (He : Prec_lt_emax prec emax).
  Notation F := (binary_float prec emax).
  Lemma sq_sign (x : F) : is_nan (Bmult mode_NE x x) = false -> Bsign (Bmult mode_NE x x) = false.
  Proof.
    intros H. pose proof (Bmult_correct prec emax Hp He mode_NE x x) as B.
    destruct (Rlt_bool _ _) in B.
    - destruct B as (_ & _ & B). rewrite (B H). destruct (Bsign x); reflexivity.
    - destruct (Bmult mode_NE x x) as [s|s| |s m e Hb]; try discriminate; cbn in *; rewrite xorb_nilpotent in B; unfold binary_overflow in B; cbn in B; congruence.
  Qed.
  Lemma abs_squared_real_complex (x : F) s :
    abs_squared_real (farith prec emax Hp He) x = abs_squared_complex (farith prec emax Hp He) (x, B754_zero s).
  Proof.
    unfold abs_squared_real, abs_squared_complex. cbn [fst snd a_mul a_add farith].
    pose proof (sq_sign x) as H.
    assert (E : Bmult mode_NE (@B754_zero prec emax s) (B754_zero s) = B754_zero false) by (destruct s; reflexivity).
    rewrite E. destruct (Bmult mode_NE x x) as [t|t| |t m e Hb]; cbn in H; try (rewrite (H eq_refl)); reflexivity.
  Qed.
End AbsSquaredF.

(** ** abssq: both paths write the list of squares *)
Section Abssq.
  Context {T : Type} (A : arith T).
  Open Scope Z_scope.

  Lemma iter_ptr {S} (f : Z -> Z -> mem S -> M (mem S)) (si so : Z) : forall n k pi po mo,
    iter_from n k (fun (_ : Z) (st : Z * Z * mem S) => let '(inp, out, mo) := st in
        mo' <- f inp out mo ;; ret (inp + si, out + so, mo')) (pi + k * si, po + k * so, mo)
    = bind (iter_from n k (fun i mo => f (pi + i * si) (po + i * so) mo) mo)
           (fun mo' => Some (pi + (k + Z.of_nat n) * si, po + (k + Z.of_nat n) * so, mo')).
  Proof.
    induction n as [|n IH]; intros k pi po mo.
    - cbn [iter_from bind Z.of_nat]. rewrite Z.add_0_r. reflexivity.
    - cbn [iter_from]. destruct (f (pi + k * si) (po + k * so) mo) as [mo'|]; [|reflexivity].
      cbn [bind]. unfold ret. cbn [bind].
      replace (pi + k * si + si) with (pi + (k + 1) * si) by ring.
      replace (po + k * so + so) with (po + (k + 1) * so) by ring.
      rewrite IH. destruct (iter_from n (k + 1) _ mo'); cbn [bind]; [|reflexivity].
      replace (k + 1 + Z.of_nat n) with (k + Z.of_nat (Datatypes.S n)) by lia. reflexivity.
  Qed.

  Theorem abssq_real_correct sz mi pi si x mo po so :
    view mi pi si x -> writable mo po so (length x) ->
    writes (abssq_real_loop A sz (Z.of_nat (length x)) mi pi si mo po so) mo po so (map (fun v => a_mul A v v) x).
  Proof.
    intros V W. unfold abssq_real_loop.
    assert (G : for_each 0 (Z.of_nat (length x)) (fun i mo => v <- get mi pi si i ;; set mo po so i (a_mul A v v)) mo
                = Some (upds mo po so 0 (map (fun v => a_mul A v v) x))).
    { rewrite <- (map_length (fun v => a_mul A v v) x).
      apply for_each_write; [rewrite map_length; apply W|].
      intros k v m Hk. rewrite nth_error_map in Hk. destruct (nth_error x k) as [w|] eqn:E; [|discriminate].
      injection Hk as <-. rewrite (view_get _ _ _ _ _ _ V E). reflexivity. }
    destruct ((si =? sz) && (so =? sz)) eqn:C.
    - apply andb_prop in C as [C1 C2]. apply Z.eqb_eq in C1, C2. subst si so.
      unfold abssq_real_contig. rewrite G. eexists. split; [reflexivity|]. apply upds_wrote.
      rewrite map_length. apply W.
    - eexists. split; [|apply upds_wrote; rewrite map_length; apply W].
      unfold for_each in *. rewrite Z.sub_0_r in *.
      pose proof (iter_ptr (fun inp out mo => v <- load mi inp ;; store mo out (a_mul A v v)) si so (Z.to_nat (Z.of_nat (length x))) 0 pi po mo) as I.
      rewrite !Z.mul_0_l, !Z.add_0_r in I.
      match goal with |- bind ?e _ = _ => assert (EQ : e = bind (iter_from (Z.to_nat (Z.of_nat (length x))) 0 (fun i mo => v <- get mi pi si i ;; set mo po so i (a_mul A v v)) mo)
           (fun mo' => Some (pi + (0 + Z.of_nat (Z.to_nat (Z.of_nat (length x)))) * si, po + (0 + Z.of_nat (Z.to_nat (Z.of_nat (length x)))) * so, mo'))) end.
      { etransitivity; [|exact I]. clear.
        match goal with |- iter_from ?n0 ?k0 ?f ?s0 = iter_from ?n0 ?k0 ?g ?s0 =>
          assert (forall n k s, iter_from n k f s = iter_from n k g s) as X; [|apply X] end.
        intros n. induction n as [|n IH]; intros k [[i o] m]; cbn [iter_from]; [reflexivity|].
        unfold load at 1 3. destruct (mi i) as [v|]; cbn [bind]; [|reflexivity].
        destruct (store m o (a_mul A v v)); cbn [bind]; [apply IH|reflexivity]. }
      rewrite EQ, G. reflexivity.
  Qed.

  Theorem abssq_complex_correct sz mi pi si (x : list (T * T)) mo po so :
    cview mi pi si sz x -> writable mo po so (length x) ->
    writes (abssq_complex_loop A sz (Z.of_nat (length x)) mi pi si mo po so) mo po so (map (abs_squared_complex A) x).
  Proof.
    intros V W. unfold abssq_complex_loop.
    assert (G : for_each 0 (Z.of_nat (length x))
                  (fun i mo => v <- load mi (pi + i * si) ;; w <- load mi (pi + i * si + sz) ;;
                               set mo po so i (a_add A (a_mul A v v) (a_mul A w w))) mo
                = Some (upds mo po so 0 (map (abs_squared_complex A) x))).
    { rewrite <- (map_length (abs_squared_complex A) x).
      apply for_each_write; [rewrite map_length; apply W|].
      intros k v m Hk. rewrite nth_error_map in Hk. destruct (nth_error x k) as [w|] eqn:E; [|discriminate].
      injection Hk as <-. destruct (V k w E) as [V1 V2]. unfold load. rewrite V1. cbn [bind]. rewrite V2. reflexivity. }
    destruct ((si =? 2 * sz) && (so =? sz)) eqn:C.
    - apply andb_prop in C as [C1 C2]. apply Z.eqb_eq in C1, C2. subst si so.
      unfold abssq_complex_contig. eexists. split; [|apply upds_wrote; rewrite map_length; apply W].
      rewrite <- G. apply for_each_ext. intros k m _. unfold get.
      replace (pi + 2 * k * sz) with (pi + k * (2 * sz)) by ring.
      replace (pi + (2 * k + 1) * sz) with (pi + k * (2 * sz) + sz) by ring. reflexivity.
    - eexists. split; [|apply upds_wrote; rewrite map_length; apply W].
      unfold for_each in *. rewrite Z.sub_0_r in *.
      pose proof (iter_ptr (fun inp out mo => v <- load mi inp ;; w <- load mi (inp + sz) ;; store mo out (a_add A (a_mul A v v) (a_mul A w w)))
                    si so (Z.to_nat (Z.of_nat (length x))) 0 pi po mo) as I.
      rewrite !Z.mul_0_l, !Z.add_0_r in I.
      match type of I with _ = ?r => match goal with |- bind ?e _ = _ => assert (EQ : e = r) end end.
      { etransitivity; [|exact I]. clear.
        match goal with |- iter_from ?n0 ?k0 ?f ?s0 = iter_from ?n0 ?k0 ?g ?s0 =>
          assert (forall n k s, iter_from n k f s = iter_from n k g s) as X; [|apply X] end.
        intros n. induction n as [|n IH]; intros k [[i o] m]; cbn [iter_from]; [reflexivity|].
        unfold load. destruct (mi i) as [v|]; cbn [bind]; [|reflexivity].
        destruct (mi (i + sz)) as [w|]; cbn [bind]; [|reflexivity].
        destruct (store m o _); cbn [bind]; [apply IH|reflexivity]. }
      rewrite EQ. unfold set in G. rewrite G. reflexivity.
  Qed.
End Abssq.
