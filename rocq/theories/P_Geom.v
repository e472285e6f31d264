(** Proofs about cross2, cross3 and tri_area. *)
From Coq Require Import ZArith Reals List Bool Lia Lra Permutation.
From Verif Require Import CSem CSemP FoldP Num NumP M_Int M_Obj M_Stat M_Geom S_Geom.
Import ListNotations.
Open Scope Z_scope.

(** ** cross *)
Section CrossNum.
  Context {T : Type} (mul sub : T -> T -> M T).

  Lemma get3 (m : mem T) p s (u : T * T * T) : view m p s (list3 u) ->
    let '(a, b, c) := u in get m p s 0 = Some a /\ get m p s 1 = Some b /\ get m p s 2 = Some c.
  Proof.
    destruct u as [[a b] c]. intros V. cbn in V.
    repeat split; [exact (V 0%nat ltac:(cbn; lia))|exact (V 1%nat ltac:(cbn; lia))|exact (V 2%nat ltac:(cbn; lia))].
  Qed.
  Lemma get2 (m : mem T) p s a b : view m p s [a; b] ->
    get m p s 0 = Some a /\ get m p s 1 = Some b.
  Proof. intros V. split; [exact (V 0%nat ltac:(cbn; lia))|exact (V 1%nat ltac:(cbn; lia))]. Qed.

  Lemma store3 (m : mem T) p s a b c : writable m p s 3 ->
    writes (m <- set m p s 0 a ;; m <- set m p s 1 b ;; set m p s 2 c) m p s [a; b; c].
  Proof.
    intros W.
    assert (H0 : m (p + 0 * s) <> None) by exact (proj1 W 0%nat ltac:(lia)).
    assert (H1 : m (p + 1 * s) <> None) by exact (proj1 W 1%nat ltac:(lia)).
    assert (H2 : m (p + 2 * s) <> None) by exact (proj1 W 2%nat ltac:(lia)).
    destruct W as [_ Ws]. assert (Hs : s <> 0) by (destruct Ws; [assumption|lia]).
    rewrite set_upd by assumption. unfold bind.
    rewrite set_upd by (rewrite upd_other by lia; assumption).
    rewrite set_upd by (rewrite !upd_other by lia; assumption).
    exists (upds m p s 0 [a; b; c]). split; [reflexivity|].
    apply upds_wrote. left; exact Hs.
  Qed.

  (** the specification of one component *)
  Lemma cross3_ok mu pu su mv pv sv mo po so u0 u1 u2 v0 v1 v2 r0 r1 r2 :
    view mu pu su [u0; u1; u2] -> view mv pv sv [v0; v1; v2] -> writable mo po so 3 ->
    det2_num mul sub u1 u2 v1 v2 = Some r0 -> det2_num mul sub u2 u0 v2 v0 = Some r1 ->
    det2_num mul sub u0 u1 v0 v1 = Some r2 ->
    writes (cross3_core_calc mul sub mu pu su mv pv sv mo po so) mo po so [r0; r1; r2].
  Proof.
    intros U V W E0 E1 E2. unfold cross3_core_calc.
    destruct (get3 mu pu su (u0, u1, u2) U) as (-> & -> & ->).
    destruct (get3 mv pv sv (v0, v1, v2) V) as (-> & -> & ->).
    cbn [bind]. rewrite E0, E1, E2. cbn [bind]. exact (store3 mo po so r0 r1 r2 W).
  Qed.

  Lemma cross3_ub mu pu su mv pv sv mo po so u0 u1 u2 v0 v1 v2 :
    view mu pu su [u0; u1; u2] -> view mv pv sv [v0; v1; v2] ->
    det2_num mul sub u1 u2 v1 v2 = None \/ det2_num mul sub u2 u0 v2 v0 = None \/
    det2_num mul sub u0 u1 v0 v1 = None ->
    cross3_core_calc mul sub mu pu su mv pv sv mo po so = None.
  Proof.
    intros U V H. unfold cross3_core_calc.
    destruct (get3 mu pu su (u0, u1, u2) U) as (-> & -> & ->).
    destruct (get3 mv pv sv (v0, v1, v2) V) as (-> & -> & ->).
    cbn [bind].
    destruct (det2_num mul sub u1 u2 v1 v2) as [r0|]; [|reflexivity]. cbn [bind].
    destruct (set mo po so 0 r0) as [m1|]; [|reflexivity]. cbn [bind].
    destruct (det2_num mul sub u2 u0 v2 v0) as [r1|]; [|reflexivity]. cbn [bind].
    destruct (set m1 po so 1 r1) as [m2|]; [|reflexivity]. cbn [bind].
    destruct (det2_num mul sub u0 u1 v0 v1) as [r2|]; [|reflexivity].
    destruct H as [H|[H|H]]; discriminate.
  Qed.

  Lemma cross2_ok mu pu su mv pv sv mo po u0 u1 v0 v1 r :
    view mu pu su [u0; u1] -> view mv pv sv [v0; v1] -> mo po <> None ->
    det2_num mul sub u0 u1 v0 v1 = Some r ->
    writes (cross2_core_calc mul sub mu pu su mv pv sv mo po) mo po 0 [r].
  Proof.
    intros U V W E. unfold cross2_core_calc.
    destruct (get2 mu pu su u0 u1 U) as (-> & ->).
    destruct (get2 mv pv sv v0 v1 V) as (-> & ->).
    cbn [bind]. rewrite E. cbn [bind]. unfold store. destruct (mo po) eqn:Em; [|congruence].
    eexists. split; [reflexivity|]. split.
    - intros k Hk. cbn in Hk. assert (k = 0%nat) by lia. subst. cbn. rewrite Z.add_0_r, Z.eqb_refl. reflexivity.
    - intros a Ha. cbn in *. specialize (Ha 0%nat ltac:(lia)). cbn in Ha.
      destruct (Z.eqb_spec a po); [lia|reflexivity].
  Qed.
End CrossNum.

Section CrossA.
  Context {T : Type} (A : arith T).
  Local Infix "-." := (a_sub A) (at level 50, left associativity).
  Local Infix "*." := (a_mul A) (at level 40, left associativity).
  Lemma cross3_arith mu pu su mv pv sv mo po so u0 u1 u2 v0 v1 v2 :
    view mu pu su [u0; u1; u2] -> view mv pv sv [v0; v1; v2] -> writable mo po so 3 ->
    writes (cross3_core_calc (f_mul A) (f_sub A) mu pu su mv pv sv mo po so) mo po so
      [u1 *. v2 -. u2 *. v1; u2 *. v0 -. u0 *. v2; u0 *. v1 -. u1 *. v0].
  Proof. intros U V W. eapply cross3_ok; eauto; reflexivity. Qed.
  Lemma cross2_arith mu pu su mv pv sv mo po u0 u1 v0 v1 :
    view mu pu su [u0; u1] -> view mv pv sv [v0; v1] -> mo po <> None ->
    writes (cross2_core_calc (f_mul A) (f_sub A) mu pu su mv pv sv mo po) mo po 0
      [u0 *. v1 -. u1 *. v0].
  Proof. intros U V W. eapply cross2_ok; eauto; reflexivity. Qed.
End CrossA.

(** exact reals *)
Lemma cross3_exact mu pu su mv pv sv mo po so u v :
  view mu pu su (list3 (map3 Fin u)) -> view mv pv sv (list3 (map3 Fin v)) -> writable mo po so 3 ->
  writes (cross3_core_calc (f_mul earith) (f_sub earith) mu pu su mv pv sv mo po so) mo po so
    (list3 (map3 Fin (cross3R u v))).
Proof.
  destruct u as [[u0 u1] u2], v as [[v0 v1] v2]. intros U V W.
  exact (cross3_arith earith mu pu su mv pv sv mo po so _ _ _ _ _ _ U V W).
Qed.
Lemma cross2_exact mu pu su mv pv sv mo po u0 u1 v0 v1 :
  view mu pu su [Fin u0; Fin u1] -> view mv pv sv [Fin v0; Fin v1] -> mo po <> None ->
  writes (cross2_core_calc (f_mul earith) (f_sub earith) mu pu su mv pv sv mo po) mo po 0
    [Fin (u0 * v1 - u1 * v0)].
Proof. intros U V W. exact (cross2_arith earith _ _ _ _ _ _ _ _ _ _ _ _ U V W). Qed.

(** signed integers *)
Lemma det2_int t a b c d :
  det2_num (c_mul t) (c_sub t) a b c d =
  if in_range t (a * d) && in_range t (b * c) && in_range t (a * d - b * c) then Some (a * d - b * c) else None.
Proof.
  unfold det2_num, c_mul, c_sub. destruct (in_range t (a * d)); [|reflexivity]. cbn.
  destruct (in_range t (b * c)); [|reflexivity]. cbn. reflexivity.
Qed.

Definition det_ok (t : ity) (a b c d : Z) : Prop :=
  in_range t (a * d) = true /\ in_range t (b * c) = true /\ in_range t (a * d - b * c) = true.

Lemma det2_int_ok t a b c d : det_ok t a b c d -> det2_num (c_mul t) (c_sub t) a b c d = Some (a * d - b * c).
Proof. intros (H1 & H2 & H3). rewrite det2_int, H1, H2, H3. reflexivity. Qed.

Lemma in_range_abs t x K : imin t <= - K -> K <= imax t -> Z.abs x <= K -> in_range t x = true.
Proof. intros. unfold in_range. apply andb_true_intro. split; apply Z.leb_le; lia. Qed.

Lemma small_det t B a b c d : imin t <= - (2 * B * B) -> 2 * B * B <= imax t -> 0 <= B ->
  Z.abs a <= B -> Z.abs b <= B -> Z.abs c <= B -> Z.abs d <= B -> det_ok t a b c d.
Proof.
  intros Hm HM HB Ha Hb Hc Hd.
  assert (P : forall x y, Z.abs x <= B -> Z.abs y <= B -> Z.abs (x * y) <= B * B).
  { intros x y Hx Hy. rewrite Z.abs_mul. apply Z.mul_le_mono_nonneg; lia. }
  pose proof (P a d Ha Hd). pose proof (P b c Hb Hc).
  repeat split; apply in_range_abs with (2 * B * B); try assumption; nia.
Qed.

Lemma cross3_int t B mu pu su mv pv sv mo po so u v :
  imin t <= - (2 * B * B) -> 2 * B * B <= imax t ->
  view mu pu su (list3 u) -> view mv pv sv (list3 v) -> writable mo po so 3 ->
  Forall (fun x => Z.abs x <= B) (list3 u) -> Forall (fun x => Z.abs x <= B) (list3 v) ->
  writes (cross3_core_calc (c_mul t) (c_sub t) mu pu su mv pv sv mo po so) mo po so (list3 (cross3Z u v)).
Proof.
  destruct u as [[u0 u1] u2], v as [[v0 v1] v2]. intros Hm HM U V W FU FV.
  cbn in FU, FV. inversion FU as [|? ? A0 FU1]; subst. inversion FU1 as [|? ? A1 FU2]; subst.
  inversion FU2 as [|? ? A2 _]; subst. inversion FV as [|? ? B0 FV1]; subst. inversion FV1 as [|? ? B1 FV2]; subst.
  inversion FV2 as [|? ? B2 _]; subst. assert (0 <= B) by lia.
  eapply cross3_ok; eauto; apply det2_int_ok; eapply small_det; eauto.
Qed.
Lemma cross2_int t B mu pu su mv pv sv mo po u0 u1 v0 v1 :
  imin t <= - (2 * B * B) -> 2 * B * B <= imax t ->
  view mu pu su [u0; u1] -> view mv pv sv [v0; v1] -> mo po <> None ->
  Z.abs u0 <= B -> Z.abs u1 <= B -> Z.abs v0 <= B -> Z.abs v1 <= B ->
  writes (cross2_core_calc (c_mul t) (c_sub t) mu pu su mv pv sv mo po) mo po 0 [u0 * v1 - u1 * v0].
Proof. intros. eapply cross2_ok; eauto. apply det2_int_ok. eapply small_det; eauto. lia. Qed.

(** objects *)
Lemma pynum_err O op a b w r w' : pynum O op a b w = (r, w') ->
  (r = None -> aerr w' = true) /\ (forall x, r = Some x -> aerr w' = aerr w).
Proof.
  unfold pynum. intros E. destruct (O ((op, a, b) :: ahist w)); inversion E; subst; cbn; split; congruence.
Qed.

Lemma det2_err O a b c d w r w' : det2 O a b c d w = (r, w') ->
  (r = None -> aerr w' = true) /\ (forall x, r = Some x -> aerr w' = aerr w).
Proof.
  unfold det2. destruct (pynum O OMul a d w) as [[p0|] w1] eqn:E1; apply pynum_err in E1; destruct E1 as [E1n E1s].
  - destruct (pynum O OMul b c w1) as [[p1|] w2] eqn:E2; apply pynum_err in E2; destruct E2 as [E2n E2s].
    + intros E3. apply pynum_err in E3. destruct E3 as [E3n E3s]. split; [exact E3n|].
      intros x ->. rewrite (E3s x eq_refl), (E2s _ eq_refl). apply (E1s _ eq_refl).
    + intros [= <- <-]. split; [exact E2n|discriminate].
  - intros [= <- <-]. split; [exact E1n|discriminate].
Qed.

Lemma pynum_val {X} O (val : obj -> X) mul sub op a b w x w' : faithful O val mul sub -> pynum O op a b w = (Some x, w') ->
  val x = match op with OMul => mul (val a) (val b) | OSub => sub (val a) (val b) end.
Proof.
  unfold pynum. intros F E. destruct (O ((op, a, b) :: ahist w)) eqn:E1; [|discriminate].
  inversion E; subst. exact (F _ _ _ _ _ E1).
Qed.

Lemma det2_val {X} O (val : obj -> X) mul sub a b c d w x w' : faithful O val mul sub -> det2 O a b c d w = (Some x, w') ->
  val x = sub (mul (val a) (val d)) (mul (val b) (val c)).
Proof.
  intros F. unfold det2. destruct (pynum O OMul a d w) as [[p0|] w1] eqn:E1; [|discriminate].
  destruct (pynum O OMul b c w1) as [[p1|] w2] eqn:E2; [|discriminate]. intros E3.
  apply (pynum_val _ _ _ _ _ _ _ _ _ _ F) in E1, E2, E3. congruence.
Qed.

Lemma det2_some O a b c d w : never_raises O -> exists x w', det2 O a b c d w = (Some x, w').
Proof.
  intros N. unfold det2, pynum.
  destruct (O ((OMul, a, d) :: ahist w)) eqn:E1; [|destruct (N _ E1)]. cbn.
  destruct (O ((OMul, b, c) :: _)) eqn:E2; [|destruct (N _ E2)]. cbn.
  destruct (O ((OSub, o, o0) :: _)) eqn:E3; [|destruct (N _ E3)]. eauto.
Qed.

Section ObjRes.
  Context (O : aoracle).
  Lemma cross3_object_res mu pu su mv pv sv mo po so u v :
    view mu pu su (list3 u) -> view mv pv sv (list3 v) -> writable mo po so 3 ->
    exists mo' w', cross3_core_calc_object O mu pu su mv pv sv mo po so (mkAW [] false) = Some (mo', w') /\
      (aerr w' = true -> mo' = mo) /\
      (aerr w' = false -> exists r, wrote mo mo' po so (list3 r) /\
         forall X (val : obj -> X) mul sub, faithful O val mul sub -> map3 val r = cross3X mul sub (map3 val u) (map3 val v)) /\
      (never_raises O -> aerr w' = false).
  Proof.
    destruct u as [[u0 u1] u2], v as [[v0 v1] v2]. intros U V W. unfold cross3_core_calc_object.
    destruct (get3 mu pu su (u0, u1, u2) U) as (-> & -> & ->).
    destruct (get3 mv pv sv (v0, v1, v2) V) as (-> & -> & ->).
    cbn [bind]. set (w0 := mkAW [] false).
    destruct (det2 O u1 u2 v1 v2 w0) as [[r0|] w1] eqn:E0.
    2:{ exists mo, w1. split; [reflexivity|]. pose proof (proj1 (det2_err _ _ _ _ _ _ _ _ E0) eq_refl) as X.
        rewrite X. repeat split; try congruence. intros N. destruct (det2_some O u1 u2 v1 v2 w0 N) as (? & ? & E).
        congruence. }
    pose proof (proj2 (det2_err _ _ _ _ _ _ _ _ E0) r0 eq_refl) as X0.
    destruct (det2 O u2 u0 v2 v0 w1) as [[r1|] w2] eqn:E1.
    2:{ exists mo, w2. split; [reflexivity|]. pose proof (proj1 (det2_err _ _ _ _ _ _ _ _ E1) eq_refl) as X.
        rewrite X. repeat split; try congruence. intros N. destruct (det2_some O u2 u0 v2 v0 w1 N) as (? & ? & E).
        congruence. }
    pose proof (proj2 (det2_err _ _ _ _ _ _ _ _ E1) r1 eq_refl) as X1.
    destruct (det2 O u0 u1 v0 v1 w2) as [[r2|] w3] eqn:E2.
    2:{ exists mo, w3. split; [reflexivity|]. pose proof (proj1 (det2_err _ _ _ _ _ _ _ _ E2) eq_refl) as X.
        rewrite X. repeat split; try congruence. intros N. destruct (det2_some O u0 u1 v0 v1 w2 N) as (? & ? & E).
        congruence. }
    pose proof (proj2 (det2_err _ _ _ _ _ _ _ _ E2) r2 eq_refl) as X2.
    destruct (store3 mo po so r0 r1 r2 W) as (mo' & Es & Wr).
    exists mo', w3. rewrite X2, X1, X0. split.
    { unfold bind in *. destruct (set mo po so 0 r0); [|discriminate].
      destruct (set m po so 1 r1); [|discriminate]. rewrite Es. reflexivity. }
    split; [discriminate|]. split; [|reflexivity]. intros _. exists (r0, r1, r2). split; [exact Wr|].
    intros X val mul sub F. cbn. rewrite (det2_val _ val mul sub _ _ _ _ _ _ _ F E0), (det2_val _ val mul sub _ _ _ _ _ _ _ F E1), (det2_val _ val mul sub _ _ _ _ _ _ _ F E2).
    reflexivity.
  Qed.

  Lemma cross2_object_res mu pu su mv pv sv mo po u0 u1 v0 v1 :
    view mu pu su [u0; u1] -> view mv pv sv [v0; v1] -> mo po <> None ->
    exists mo' w', cross2_core_calc_object O mu pu su mv pv sv mo po (mkAW [] false) = Some (mo', w') /\
      (aerr w' = true -> mo' = mo) /\
      (aerr w' = false -> exists r, wrote mo mo' po 0 [r] /\
         forall X (val : obj -> X) mul sub, faithful O val mul sub ->
           val r = sub (mul (val u0) (val v1)) (mul (val u1) (val v0))) /\
      (never_raises O -> aerr w' = false).
  Proof.
    intros U V W. unfold cross2_core_calc_object.
    destruct (get2 mu pu su u0 u1 U) as (-> & ->).
    destruct (get2 mv pv sv v0 v1 V) as (-> & ->).
    cbn [bind]. set (w0 := mkAW [] false).
    destruct (det2 O u0 u1 v0 v1 w0) as [[r2|] w3] eqn:E2.
    2:{ exists mo, w3. split; [reflexivity|]. pose proof (proj1 (det2_err _ _ _ _ _ _ _ _ E2) eq_refl) as X.
        rewrite X. repeat split; try congruence. intros N. destruct (det2_some O u0 u1 v0 v1 w0 N) as (? & ? & E).
        congruence. }
    pose proof (proj2 (det2_err _ _ _ _ _ _ _ _ E2) r2 eq_refl) as X2.
    unfold store. destruct (mo po) eqn:Em; [|congruence]. cbn [bind].
    eexists. exists w3. split; [reflexivity|]. rewrite X2. split; [discriminate|]. split; [|reflexivity].
    intros _. exists r2. split; [|intros X val mul sub F; exact (det2_val _ _ _ _ _ _ _ _ _ _ _ F E2)].
    split.
    - intros k Hk. cbn in Hk. assert (k = 0%nat) by lia. subst. cbn. rewrite Z.add_0_r, Z.eqb_refl. reflexivity.
    - intros a Ha. cbn in *. specialize (Ha 0%nat ltac:(lia)). cbn in Ha.
      destruct (Z.eqb_spec a po); [lia|reflexivity].
  Qed.
End ObjRes.

(** ** tri_area: the value as a function of the three points *)
Section TriV.
  Context {T : Type} (A : arith T).
  Definition nd (p q : list T) : T :=
    a_sqrt A (fold_left (fun s xy => a_add A s (a_mul A (a_sub A (snd xy) (fst xy)) (a_sub A (snd xy) (fst xy))))
                        (combine p q) (a_ofZ A 0)).
  Definition tri_val (p q r : list T) : T :=
    let '(a, b, c) := sort_sides A (nd p q) (nd p r) (nd q r) in heron A a b c.

  Lemma view2_row m (b s0 s1 : Z) (rows : list (list T)) i row :
    view2 m b s0 s1 rows -> nth_error rows i = Some row -> view m (b + Z.of_nat i * s0) s1 row.
  Proof.
    intros V Hi k Hk. destruct (nth_error row k) eqn:E; [|apply nth_error_None in E; lia].
    exact (V i k row t Hi E).
  Qed.

  Lemma norm_diff_val (m : mem T) b s0 s1 n i j p q :
    view m (b + i * s0) s1 p -> view m (b + j * s0) s1 q -> length p = n -> length q = n ->
    Z.of_nat n <= INT_MAX ->
    norm_diff A (Z.of_nat n) m b s0 s1 i j = Some (nd p q).
  Proof.
    intros Vp Vq Lp Lq Hn. unfold norm_diff, int_for_each.
    replace (Z.of_nat n <=? INT_MAX) with true by (symmetry; apply Z.leb_le; exact Hn).
    subst n. unfold nd.
    rewrite (for_each_fold2 m (b + i * s0) s1 p m (b + j * s0) s1 q _
      (fun s xy => a_add A s (a_mul A (a_sub A (snd xy) (fst xy)) (a_sub A (snd xy) (fst xy))))); try assumption.
    - cbn. reflexivity.
    - intros k s x y _ Hx Hy. unfold get2d, get, load in *. rewrite Hx. cbn. rewrite Hy. reflexivity.
  Qed.

  Lemma tri_common_val (m : mem T) b s0 s1 n i0 i1 i2 p q r :
    view m (b + i0 * s0) s1 p -> view m (b + i1 * s0) s1 q -> view m (b + i2 * s0) s1 r ->
    length p = n -> length q = n -> length r = n -> Z.of_nat n <= INT_MAX ->
    tri_area_common_calc A (Z.of_nat n) m b s0 s1 i0 i1 i2 = Some (tri_val p q r).
  Proof.
    intros Vp Vq Vr Lp Lq Lr Hn. unfold tri_area_common_calc.
    rewrite (norm_diff_val m b s0 s1 n i0 i1 p q), (norm_diff_val m b s0 s1 n i0 i2 p r),
      (norm_diff_val m b s0 s1 n i1 i2 q r) by assumption.
    cbn [bind]. unfold tri_val. destruct (sort_sides A (nd p q) (nd p r) (nd q r)) as [[a b'] c]. reflexivity.
  Qed.

  Lemma tri_area_val (m : mem T) b s0 s1 n p q r :
    view2 m b s0 s1 [p; q; r] -> length p = n -> length q = n -> length r = n -> Z.of_nat n <= INT_MAX ->
    tri_area_core_calc A (Z.of_nat n) m b s0 s1 = Some (tri_val p q r).
  Proof.
    intros V Lp Lq Lr Hn. apply tri_common_val; try assumption.
    - exact (view2_row m b s0 s1 _ 0 p V eq_refl).
    - exact (view2_row m b s0 s1 _ 1 q V eq_refl).
    - exact (view2_row m b s0 s1 _ 2 r V eq_refl).
  Qed.

  Lemma get_index_py (mi : mem Z) pi si k i M : get mi pi si k = Some i -> 0 <= M ->
    get_index mi pi si k M = Some (match py_index M i with Some j => j | None => -1 end).
  Proof.
    intros E HM. unfold get_index, py_index. rewrite E. cbn [bind]. unfold ret. f_equal.
    destruct (Z.ltb_spec i 0).
    - destruct (Z.leb_spec (- M) i); cbn.
      + destruct (Z.ltb_spec (i + M) 0); [lia|]. destruct (Z.leb_spec M (i + M)); [lia|]. cbn.
        destruct (Z.ltb_spec i M); [|lia].
        rewrite <- (Z.mod_small (i + M) M) by lia. replace (i + M) with (i + 1 * M) by lia. apply Z.mod_add. lia.
      + destruct (Z.ltb_spec (i + M) 0); [reflexivity|lia].
    - destruct (Z.leb_spec (- M) i); [|lia]. cbn [andb]. 
      destruct (Z.ltb_spec i 0); [lia|]. cbn [orb].
      destruct (Z.leb_spec M i), (Z.ltb_spec i M); try lia; try reflexivity.
      symmetry. apply Z.mod_small. lia.
  Qed.

  Lemma py_index_range M i j : py_index M i = Some j -> 0 <= j < M.
  Proof.
    unfold py_index. destruct (Z.leb_spec (- M) i), (Z.ltb_spec i M); cbn; try discriminate.
    intros [= <-]. apply Z.mod_pos_bound. lia.
  Qed.

  Lemma tri_indexed_val (m : mem T) b s0 s1 n rows (mi : mem Z) pi si i0 i1 i2 :
    view2 m b s0 s1 rows -> Forall (fun row => length row = n) rows -> Z.of_nat n <= INT_MAX ->
    view mi pi si [i0; i1; i2] ->
    tri_area_indexed_core_calc A (Z.of_nat (length rows)) (Z.of_nat n) m b s0 s1 mi pi si =
    match py_index (Z.of_nat (length rows)) i0, py_index (Z.of_nat (length rows)) i1,
          py_index (Z.of_nat (length rows)) i2 with
    | Some j0, Some j1, Some j2 =>
        Some (tri_val (nth (Z.to_nat j0) rows []) (nth (Z.to_nat j1) rows []) (nth (Z.to_nat j2) rows []))
    | _, _, _ => Some (a_nan A)
    end.
  Proof.
    intros V F Hn Vi. unfold tri_area_indexed_core_calc. set (M := Z.of_nat (length rows)).
    destruct (get3 mi pi si (i0, i1, i2) Vi) as (E0 & E1 & E2).
    rewrite (get_index_py mi pi si 0 i0 M E0), (get_index_py mi pi si 1 i1 M E1), (get_index_py mi pi si 2 i2 M E2) by lia.
    cbn [bind].
    assert (NM : forall i j, py_index M i = Some j -> j =? -1 = false).
    { intros i j H. apply py_index_range in H. apply Z.eqb_neq. lia. }
    assert (RW : forall j, 0 <= j < M -> view m (b + j * s0) s1 (nth (Z.to_nat j) rows []) /\ length (nth (Z.to_nat j) rows []) = n).
    { intros j Hj. unfold M in Hj. assert (Hl : (Z.to_nat j < length rows)%nat) by lia.
      pose proof (nth_error_nth' rows [] Hl) as En. split.
      - replace j with (Z.of_nat (Z.to_nat j)) at 1 by lia. exact (view2_row m b s0 s1 _ _ _ V En).
      - rewrite Forall_forall in F. apply F. apply nth_In. exact Hl. }
    destruct (py_index M i0) as [j0|] eqn:P0; [rewrite (NM _ _ P0)|reflexivity].
    destruct (py_index M i1) as [j1|] eqn:P1; [rewrite (NM _ _ P1)|reflexivity].
    destruct (py_index M i2) as [j2|] eqn:P2; [rewrite (NM _ _ P2)|reflexivity].
    cbn [orb]. apply py_index_range in P0, P1, P2.
    destruct (RW j0 P0), (RW j1 P1), (RW j2 P2).
    apply tri_common_val; assumption.
  Qed.

  (** no row outside the array is read *)
  Lemma tri_indexed_frame (m m' : mem T) b s0 s1 n rows (mi : mem Z) pi si i0 i1 i2 :
    view2 m b s0 s1 rows -> view2 m' b s0 s1 rows -> Forall (fun row => length row = n) rows -> Z.of_nat n <= INT_MAX ->
    view mi pi si [i0; i1; i2] ->
    tri_area_indexed_core_calc A (Z.of_nat (length rows)) (Z.of_nat n) m b s0 s1 mi pi si =
    tri_area_indexed_core_calc A (Z.of_nat (length rows)) (Z.of_nat n) m' b s0 s1 mi pi si /\
    tri_area_indexed_core_calc A (Z.of_nat (length rows)) (Z.of_nat n) m b s0 s1 mi pi si <> None.
  Proof.
    intros V V' F Hn Vi. rewrite !(tri_indexed_val _ b s0 s1 n rows mi pi si i0 i1 i2) by assumption.
    split; [reflexivity|].
    destruct (py_index (Z.of_nat (length rows)) i0), (py_index (Z.of_nat (length rows)) i1), (py_index (Z.of_nat (length rows)) i2); discriminate.
  Qed.
End TriV.

(** permutation of three elements from two exchanges *)
Lemma perm3 {X Y} (f : X -> X -> X -> Y) :
  (forall a b c, f a b c = f b a c) -> (forall a b c, f a b c = f a c b) ->
  forall a b c a' b' c', Permutation [a; b; c] [a'; b'; c'] -> f a b c = f a' b' c'.
Proof.
  intros H1 H2.
  set (g := fun l d => match l with [a; b; c] => f a b c | _ => d end).
  assert (G : forall l l', Permutation l l' -> forall d, g l d = g l' d).
  { intros l l' P. induction P; intros d; cbn.
    - reflexivity.
    - destruct l as [|y [|z [|? ?]]].
      + apply Permutation_nil in P. subst. reflexivity.
      + apply Permutation_length_1_inv in P. subst. reflexivity.
      + apply Permutation_length_2_inv in P. destruct P as [-> | ->]; [reflexivity|apply H2].
      + apply Permutation_length in P. destruct l' as [|? [|? [|? ?]]]; cbn in P; try lia. reflexivity.
    - destruct l as [|z [|? ?]]; try reflexivity. apply H1.
    - congruence. }
  intros a b c a' b' c' P. exact (G _ _ P (f a b c)).
Qed.

Section Perm.
  Context {T : Type} (A : arith T) (L : cmp_laws (a_cmp A)).
  (** squares of differences do not depend on the order of the operands *)
  Context (Hsq : forall x y, a_mul A (a_sub A x y) (a_sub A x y) = a_mul A (a_sub A y x) (a_sub A y x)).
  (** lengths that compare equal are identical; comparable or NaN *)
  Context (P : T -> Prop).
  Context (Pnd : forall p q, P (nd A p q)).
  Context (Peq : forall x y, P x -> P y -> a_cmp A x y = Some Eq -> x = y).
  Context (Hnan : forall x y z, isnanb (a_cmp A) x = true \/ isnanb (a_cmp A) y = true \/ isnanb (a_cmp A) z = true ->
                                heron A x y z = a_nan A).
  Notation nan := (isnanb (a_cmp A)).

  Lemma nd_sym : forall p q, nd A p q = nd A q p.
  Proof.
    intros p q. unfold nd. f_equal. generalize (a_ofZ A 0). revert q.
    induction p as [|x p IH]; intros [|y q] s; try reflexivity. cbn. rewrite (Hsq y x). apply IH.
  Qed.

  Definition hs (a b c : T) : T := let '(a, b, c) := sort_sides A a b c in heron A a b c.

  Lemma hs_nan a b c : nan a = true \/ nan b = true \/ nan c = true -> hs a b c = a_nan A.
  Proof.
    intros H. unfold hs, sort_sides.
    destruct (gtb (a_cmp A) b a); [destruct (gtb (a_cmp A) c b), (gtb (a_cmp A) c a)|destruct (gtb (a_cmp A) c a), (gtb (a_cmp A) c b)];
      apply Hnan; tauto.
  Qed.

  Ltac hs_tac :=
    repeat match goal with
    | H : gtb _ _ _ = true |- _ => rewrite gtb_ltb in H by exact L
    | H : gtb _ _ _ = false |- _ => rewrite gtb_ltb in H by exact L
    end.

  Lemma eq_of x y : P x -> P y -> nan x = false -> nan y = false ->
    ltb (a_cmp A) x y = false -> ltb (a_cmp A) y x = false -> x = y.
  Proof.
    intros Px Py Nx Ny H1 H2. apply Peq; try assumption. unfold ltb in *.
    destruct (cmp_some _ L x y Nx Ny) as (c & Hc). rewrite (cmp_swap _ L x y) in H2. rewrite Hc in *.
    destruct c; cbn in *; congruence.
  Qed.

  Lemma hs_12 a b c : P a -> P b -> P c -> hs a b c = hs b a c.
  Proof.
    intros Pa Pb Pc.
    destruct (nan a) eqn:Na; [rewrite !hs_nan by tauto; reflexivity|].
    destruct (nan b) eqn:Nb; [rewrite !hs_nan by tauto; reflexivity|].
    unfold hs, sort_sides. 
    destruct (gtb (a_cmp A) b a) eqn:E1, (gtb (a_cmp A) a b) eqn:E2; hs_tac; try reflexivity.
    - pose proof (ltb_irrefl _ L a). pose proof (ltb_trans _ L a b a E1 E2). congruence.
    - assert (a = b) by (apply eq_of; assumption). subst. reflexivity.
  Qed.

  Lemma hs_23 a b c : P a -> P b -> P c -> hs a b c = hs a c b.
  Proof.
    intros Pa Pb Pc.
    destruct (nan a) eqn:Na; [rewrite !hs_nan by tauto; reflexivity|].
    destruct (nan b) eqn:Nb; [rewrite !hs_nan by tauto; reflexivity|].
    destruct (nan c) eqn:Nc; [rewrite !hs_nan by tauto; reflexivity|].
    assert (IR := ltb_irrefl _ L). assert (TR := ltb_trans _ L).
    assert (NL : forall x y, nan x = false -> nan y = false -> ltb (a_cmp A) x y = false -> leb (a_cmp A) y x = true)
      by (intros; apply (not_lt_le _ L); assumption).
    assert (NLT := le_not_lt _ L). assert (LLT := le_lt_trans _ L). assert (LTL := lt_le_trans _ L).
    assert (EQ := eq_of).
    unfold hs, sort_sides.
    rewrite !(gtb_ltb _ L).
    destruct (ltb (a_cmp A) a b) eqn:Eab, (ltb (a_cmp A) a c) eqn:Eac; rewrite ?(gtb_ltb _ L), ?Eab, ?Eac;
      destruct (ltb (a_cmp A) b c) eqn:Ebc, (ltb (a_cmp A) c b) eqn:Ecb; try reflexivity.
    all: try (exfalso; pose proof (TR b c b Ebc Ecb); rewrite IR in *; discriminate).
    all: try (assert (b = c) by (apply EQ; assumption); subst; try reflexivity; congruence).
    all: try (exfalso; pose proof (TR a b c Eab Ebc); congruence).
    all: try (exfalso; pose proof (TR a c b Eac Ecb); congruence).
  Qed.

  Lemma tri_val_hs p q r : tri_val A p q r = hs (nd A p q) (nd A p r) (nd A q r).
  Proof. reflexivity. Qed.

  Lemma tri_val_perm p q r p' q' r' : Permutation [p; q; r] [p'; q'; r'] -> tri_val A p q r = tri_val A p' q' r'.
  Proof.
    apply perm3; intros a b c; rewrite !tri_val_hs.
    - rewrite (nd_sym b a), hs_23 by apply Pnd. reflexivity.
    - rewrite (nd_sym c b), hs_12 by apply Pnd. reflexivity.
  Qed.
End Perm.

(** exactly when the integer loops are undefined *)
Lemma cross2_int_defined t mu pu su mv pv sv mo po u0 u1 v0 v1 :
  view mu pu su [u0; u1] -> view mv pv sv [v0; v1] -> mo po <> None ->
  (cross2_core_calc (c_mul t) (c_sub t) mu pu su mv pv sv mo po <> None <->
   in_range t (u0 * v1) = true /\ in_range t (u1 * v0) = true /\ in_range t (u0 * v1 - u1 * v0) = true).
Proof.
  intros U V W. split.
  - intros D. unfold cross2_core_calc in D.
    destruct (get2 mu pu su u0 u1 U) as (Eu0 & Eu1). destruct (get2 mv pv sv v0 v1 V) as (Ev0 & Ev1).
    rewrite Eu0, Eu1, Ev0, Ev1 in D. cbn [bind] in D. rewrite det2_int in D.
    destruct (in_range t (u0 * v1)); [|destruct D; reflexivity].
    destruct (in_range t (u1 * v0)); [|destruct D; reflexivity].
    destruct (in_range t (u0 * v1 - u1 * v0)); [|destruct D; reflexivity]. auto.
  - intros H. destruct (cross2_ok (c_mul t) (c_sub t) mu pu su mv pv sv mo po u0 u1 v0 v1 _ U V W (det2_int_ok t _ _ _ _ H)) as (m' & -> & _).
    discriminate.
Qed.

Section IdxRow.
  Context {T : Type} (A : arith T).
  Lemma tri_indexed_rows (m m' : mem T) b s0 s1 b' s0' s1' n rows (mi : mem Z) pi si i0 i1 i2 j0 j1 j2 p q r :
    view2 m b s0 s1 rows -> Forall (fun row => length row = n) rows -> Z.of_nat n <= INT_MAX ->
    view mi pi si [i0; i1; i2] ->
    py_index (Z.of_nat (length rows)) i0 = Some j0 -> nth_error rows (Z.to_nat j0) = Some p ->
    py_index (Z.of_nat (length rows)) i1 = Some j1 -> nth_error rows (Z.to_nat j1) = Some q ->
    py_index (Z.of_nat (length rows)) i2 = Some j2 -> nth_error rows (Z.to_nat j2) = Some r ->
    view2 m' b' s0' s1' [p; q; r] ->
    tri_area_indexed_core_calc A (Z.of_nat (length rows)) (Z.of_nat n) m b s0 s1 mi pi si =
      tri_area_core_calc A (Z.of_nat n) m' b' s0' s1' /\
    tri_area_core_calc A (Z.of_nat n) m' b' s0' s1' <> None.
  Proof.
    intros V F Hn Vi P0 N0 P1 N1 P2 N2 V'.
    rewrite (tri_indexed_val A m b s0 s1 n rows mi pi si i0 i1 i2) by assumption.
    rewrite P0, P1, P2.
    rewrite (nth_error_nth rows (Z.to_nat j0) [] N0), (nth_error_nth rows (Z.to_nat j1) [] N1), (nth_error_nth rows (Z.to_nat j2) [] N2).
    rewrite Forall_forall in F.
    rewrite (tri_area_val A m' b' s0' s1' n p q r); try assumption; try (apply F; eapply nth_error_In; eassumption).
    split; [reflexivity|discriminate].
  Qed.

  Lemma tri_indexed_out (m : mem T) b s0 s1 mrows n (mi : mem Z) pi si i0 i1 i2 :
    0 <= mrows -> view mi pi si [i0; i1; i2] ->
    py_index mrows i0 = None \/ py_index mrows i1 = None \/ py_index mrows i2 = None ->
    tri_area_indexed_core_calc A mrows n m b s0 s1 mi pi si = Some (a_nan A).
  Proof.
    intros HM Vi H. unfold tri_area_indexed_core_calc.
    destruct (get3 mi pi si (i0, i1, i2) Vi) as (E0 & E1 & E2).
    rewrite (get_index_py mi pi si 0 i0 mrows E0), (get_index_py mi pi si 1 i1 mrows E1), (get_index_py mi pi si 2 i2 mrows E2) by lia.
    cbn [bind]. destruct H as [-> | [-> | ->]]; cbn [Z.eqb orb Pos.eqb]; rewrite ?orb_true_r; reflexivity.
  Qed.
End IdxRow.
