(** tri_area in exact arithmetic: equality with the Gram determinant, and geometry of the latter. *)
From Coq Require Import ZArith Reals List Bool Lia Lra Permutation.
From Verif Require Import CSem CSemP Num NumP M_Int M_Stat M_Geom S_Geom P_Geom.
Import ListNotations.
Open Scope R_scope.

Lemma nd_fold : forall (p q : list R) s,
  fold_left (fun s xy => eadd s (emul (esub (snd xy) (fst xy)) (esub (snd xy) (fst xy))))
    (combine (map Fin p) (map Fin q)) (Fin s) = Fin (s + dot (vsub q p) (vsub q p)).
Proof.
  induction p as [|x p IH]; intros [|y q] s; cbn; try (f_equal; unfold dot, sumR; cbn; ring).
  rewrite IH. f_equal. unfold dot, vsub, sumR, vzip. cbn. ring.
Qed.

Lemma dot_self_nonneg : forall u, 0 <= dot u u.
Proof.
  induction u as [|x u IH]; [unfold dot; cbn; lra|].
  change (dot (x :: u) (x :: u)) with (x * x + dot u u). pose proof (Rle_0_sqr x). unfold Rsqr in *. lra.
Qed.

Lemma nd_exact p q : nd earith (map Fin p) (map Fin q) = Fin (sqrt (dot (vsub q p) (vsub q p))).
Proof.
  unfold nd. change (a_add earith) with eadd. change (a_mul earith) with emul. change (a_sub earith) with esub.
  change (a_ofZ earith 0) with (Fin 0). rewrite nd_fold. rewrite Rplus_0_l.
  apply esqrt_Fin. apply dot_self_nonneg.
Qed.

Lemma dot_cons x u y v : dot (x :: u) (y :: v) = x * y + dot u v.
Proof. reflexivity. Qed.
Lemma vsub_cons x u y v : vsub (x :: u) (y :: v) = (x - y) :: vsub u v.
Proof. reflexivity. Qed.

Lemma law_of_cosines : forall p q r : list R, length q = length p -> length r = length p ->
  dot (vsub r q) (vsub r q) =
  dot (vsub r p) (vsub r p) + dot (vsub q p) (vsub q p) - 2 * dot (vsub q p) (vsub r p).
Proof.
  induction p as [|x p IH]; intros [|y q] [|z r] Hq Hr; try discriminate.
  - unfold dot, vsub; cbn. ring.
  - rewrite !vsub_cons, !dot_cons. rewrite (IH q r) by (cbn in *; lia). ring.
Qed.

Lemma dot_comm : forall u v, dot u v = dot v u.
Proof.
  induction u as [|x u IH]; intros [|y v]; try reflexivity. rewrite !dot_cons, IH. ring.
Qed.

Lemma vsub_length u v : length v = length u -> length (vsub u v) = length u.
Proof. intros H. unfold vsub, vzip. rewrite map_length, combine_length, H. apply Nat.min_id. Qed.

(** Cauchy-Schwarz via |a u - b v|^2 *)
Lemma dot_lin : forall (s t : R) u v, length v = length u ->
  let w := vzip (fun x y => s * x + t * y) u v in
  dot w w = s * s * dot u u + 2 * s * t * dot u v + t * t * dot v v.
Proof.
  intros s t. induction u as [|x u IH]; intros [|y v] H; try discriminate; cbn zeta.
  - unfold dot; cbn. ring.
  - change (vzip (fun x y => s * x + t * y) (x :: u) (y :: v)) with ((s * x + t * y) :: vzip (fun x y => s * x + t * y) u v).
    rewrite !dot_cons. rewrite IH by (cbn in H; lia). ring.
Qed.

Lemma gram_nonneg u v : length v = length u -> 0 <= dot u u * dot v v - dot u v * dot u v.
Proof.
  intros H. pose proof (dot_self_nonneg u) as Hu.
  destruct (Req_dec (dot u u) 0) as [Z|NZ].
  - assert (D : dot u v = 0).
    { pose proof (dot_self_nonneg v) as Hv. set (d := dot u v) in *. set (w := dot v v) in *.
      destruct (Req_dec d 0) as [|Nd]; [assumption|].
      pose proof (dot_lin (- (w + 1) / d) 1 u v H) as E5. cbn zeta in E5.
      pose proof (dot_self_nonneg (vzip (fun x y => - (w + 1) / d * x + 1 * y) u v)) as N5.
      rewrite E5, Z in N5. fold d w in N5.
      replace (- (w + 1) / d * (- (w + 1) / d) * 0 + 2 * (- (w + 1) / d) * 1 * d + 1 * 1 * w) with (- 2 * (w + 1) + w) in N5 by (field; assumption).
      lra. }
    rewrite Z, D. lra.
  - pose proof (dot_lin (- dot u v) (dot u u) u v H) as E. cbn zeta in E.
    pose proof (dot_self_nonneg (vzip (fun x y => - dot u v * x + dot u u * y) u v)) as N.
    rewrite E in N.
    replace (- dot u v * - dot u v * dot u u + 2 * - dot u v * dot u u * dot u v + dot u u * dot u u * dot v v)
      with (dot u u * (dot u u * dot v v - dot u v * dot u v)) in N by ring.
    apply Rmult_le_reg_l with (dot u u); lra.
Qed.

Lemma heron_exact a b c : 0 <= (a + (b + c)) * (c - (a - b)) * (c + (a - b)) * (a + (b - c)) ->
  heron earith (Fin a) (Fin b) (Fin c) =
  Fin (sqrt ((a + (b + c)) * (c - (a - b)) * (c + (a - b)) * (a + (b - c))) / 4).
Proof.
  intros H. unfold heron. cbn [a_add a_sub a_mul a_div a_sqrt a_ofZ earith].
  unfold esub. cbn [eadd eopp emul]. 
  replace (c + - (a + - b)) with (c - (a - b)) by ring.
  replace (c + (a + - b)) with (c + (a - b)) by ring.
  replace (a + (b + - c)) with (a + (b - c)) by ring.
  rewrite esqrt_Fin by exact H. apply ediv_Fin. apply not_0_IZR. lia.
Qed.

Lemma sort_sides_perm a b c :
  exists a' b' c', sort_sides earith (Fin a) (Fin b) (Fin c) = (Fin a', Fin b', Fin c') /\
    Permutation [a; b; c] [a'; b'; c'].
Proof.
  unfold sort_sides. 
  destruct (gtb (a_cmp earith) (Fin b) (Fin a)).
  - destruct (gtb (a_cmp earith) (Fin c) (Fin b)).
    + exists c, b, a. split; [reflexivity|]. apply Permutation_rev.
    + destruct (gtb (a_cmp earith) (Fin c) (Fin a)).
      * exists b, c, a. split; [reflexivity|]. apply (Permutation_cons_append [b; c] a).
      * exists b, a, c. split; [reflexivity|]. apply perm_swap.
  - destruct (gtb (a_cmp earith) (Fin c) (Fin a)).
    + exists c, a, b. split; [reflexivity|]. symmetry. apply (Permutation_cons_append [a; b] c).
    + destruct (gtb (a_cmp earith) (Fin c) (Fin b)).
      * exists a, c, b. split; [reflexivity|]. apply perm_skip, perm_swap.
      * exists a, b, c. split; [reflexivity|]. apply Permutation_refl.
Qed.

Lemma heron_poly a b c :
  (a + (b + c)) * (c - (a - b)) * (c + (a - b)) * (a + (b - c)) =
  4 * (a * a) * (b * b) - (a * a + b * b - c * c) * (a * a + b * b - c * c).
Proof. ring. Qed.

Lemma heron_poly_perm a b c a' b' c' : Permutation [a; b; c] [a'; b'; c'] ->
  4 * (a * a) * (b * b) - (a * a + b * b - c * c) * (a * a + b * b - c * c) =
  4 * (a' * a') * (b' * b') - (a' * a' + b' * b' - c' * c') * (a' * a' + b' * b' - c' * c').
Proof.
  apply (perm3 (fun a b c => 4 * (a * a) * (b * b) - (a * a + b * b - c * c) * (a * a + b * b - c * c))); intros; ring.
Qed.

Lemma tri_val_exact p q r : length q = length p -> length r = length p ->
  tri_val earith (map Fin p) (map Fin q) (map Fin r) = Fin (gram_area p q r).
Proof.
  intros Hq Hr. unfold tri_val. rewrite !nd_exact.
  set (u := vsub q p). set (v := vsub r p).
  set (a := sqrt (dot u u)). set (b := sqrt (dot v v)). set (c := sqrt _).
  destruct (sort_sides_perm a b c) as (a' & b' & c' & -> & P).
  assert (LU : length v = length u) by (unfold u, v; rewrite !vsub_length; congruence).
  assert (SQ : forall w, sqrt (dot w w) * sqrt (dot w w) = dot w w).
  { intros w. apply sqrt_sqrt. apply dot_self_nonneg. }
  assert (G : 4 * (a * a) * (b * b) - (a * a + b * b - c * c) * (a * a + b * b - c * c) =
              4 * (dot u u * dot v v - dot u v * dot u v)).
  { unfold a, b, c. rewrite !SQ. rewrite (law_of_cosines p q r Hq Hr). fold u v. ring. }
  pose proof (gram_nonneg u v LU) as N.
  rewrite (heron_poly_perm _ _ _ _ _ _ P), <- heron_poly in G.
  rewrite heron_exact; rewrite G; [|lra].
  f_equal. unfold gram_area. fold u v. cbn zeta.
  rewrite sqrt_mult by lra. replace (sqrt 4) with 2.
  - field.
  - replace 4 with (2 * 2) by ring. rewrite sqrt_square; lra.
Qed.

(** ** geometry of the Gram area *)
Lemma gram_area_nonneg p q r : 0 <= gram_area p q r.
Proof. unfold gram_area. cbn zeta. pose proof (sqrt_pos (dot (vsub q p) (vsub q p) * dot (vsub r p) (vsub r p) - dot (vsub q p) (vsub r p) * dot (vsub q p) (vsub r p))). lra. Qed.

Lemma vsub_translate : forall d p q, length p = length d -> length q = length d -> vsub (vadd q d) (vadd p d) = vsub q p.
Proof.
  induction d as [|z d IH]; intros [|x p] [|y q] Hp Hq; try discriminate; [reflexivity|].
  change (vadd (y :: q) (z :: d)) with ((y + z) :: vadd q d). change (vadd (x :: p) (z :: d)) with ((x + z) :: vadd p d).
  rewrite !vsub_cons. f_equal; [ring|]. apply IH; cbn in *; lia.
Qed.

Lemma gram_translate d p q r : length p = length d -> length q = length d -> length r = length d ->
  gram_area (vadd p d) (vadd q d) (vadd r d) = gram_area p q r.
Proof. intros. unfold gram_area. rewrite !vsub_translate by assumption. reflexivity. Qed.

Lemma vsub_scale : forall k p q, vsub (vscale k q) (vscale k p) = vscale k (vsub q p).
Proof.
  intros k. induction p as [|x p IH]; intros [|y q]; try reflexivity.
  cbn [vscale map]. fold (vscale k). rewrite !vsub_cons. cbn [vscale map]. f_equal; [ring|]. apply IH.
Qed.
Lemma dot_scale : forall k u v, dot (vscale k u) (vscale k v) = k * k * dot u v.
Proof.
  intros k. induction u as [|x u IH]; intros [|y v]; try (unfold dot; cbn; ring).
  cbn [vscale map]. rewrite !dot_cons. fold (vscale k u) (vscale k v). rewrite IH. ring.
Qed.
Lemma gram_scale k p q r : length q = length p -> length r = length p ->
  gram_area (vscale k p) (vscale k q) (vscale k r) = k * k * gram_area p q r.
Proof.
  intros Hq Hr. unfold gram_area. rewrite !vsub_scale, !dot_scale. cbn zeta.
  set (u := vsub q p). set (v := vsub r p).
  assert (LU : length v = length u) by (unfold u, v; rewrite !vsub_length; congruence).
  pose proof (gram_nonneg u v LU) as N. pose proof (Rle_0_sqr (k * k)) as K. unfold Rsqr in K.
  replace (k * k * dot u u * (k * k * dot v v) - k * k * dot u v * (k * k * dot u v))
    with (k * k * (k * k) * (dot u u * dot v v - dot u v * dot u v)) by ring.
  rewrite sqrt_mult by assumption. rewrite sqrt_square; [field|]. pose proof (Rle_0_sqr k) as K'. unfold Rsqr in K'. exact K'.
Qed.

Lemma gram_perm p q r p' q' r' : length q = length p -> length r = length p ->
  Permutation [p; q; r] [p'; q'; r'] -> gram_area p q r = gram_area p' q' r'.
Proof.
  intros Hq Hr P.
  assert (H12 : forall a b c : list R, length b = length a -> length c = length a -> gram_area a b c = gram_area b a c).
  { intros a b c Hb Hc. unfold gram_area. cbn zeta. f_equal. f_equal.
    rewrite (law_of_cosines a b c) by assumption.
    assert (E1 : dot (vsub a b) (vsub a b) = dot (vsub b a) (vsub b a)).
    { assert (L := law_of_cosines a a b eq_refl Hb). clear -Hb.
      revert b Hb. induction a as [|x a IH]; intros [|y b] Hb; try discriminate; [reflexivity|].
      rewrite !vsub_cons, !dot_cons. rewrite IH by (cbn in *; lia). ring. }
    assert (E2 : dot (vsub a b) (vsub c b) = dot (vsub b a) (vsub b a) - dot (vsub b a) (vsub c a)).
    { clear -Hb Hc. revert b c Hb Hc. induction a as [|x a IH]; intros [|y b] [|z c] Hb Hc; try discriminate.
      - unfold dot; cbn; ring.
      - rewrite !vsub_cons, !dot_cons. rewrite IH by (cbn in *; lia). ring. }
    rewrite E1, E2. ring. }
  assert (H23 : forall a b c : list R, gram_area a b c = gram_area a c b).
  { intros a b c. unfold gram_area. cbn zeta. f_equal. f_equal. rewrite (dot_comm (vsub b a) (vsub c a)). ring. }
  set (n := length p) in *.
  assert (X : forall l l', Permutation l l' -> Forall (fun x => length x = n) l ->
     forall d, (match l with [a; b; c] => gram_area a b c | _ => d end) = (match l' with [a; b; c] => gram_area a b c | _ => d end)).
  { intros l l' P'. induction P' as [|x l l' P' IH|x y l|l l' l'' P1 IHP1 P2 IHP2]; intros F d.
    - reflexivity.
    - destruct l as [|y [|z [|? ?]]].
      + apply Permutation_nil in P'. subst. reflexivity.
      + apply Permutation_length_1_inv in P'. subst. reflexivity.
      + apply Permutation_length_2_inv in P'. destruct P' as [-> | ->]; [reflexivity|apply H23].
      + apply Permutation_length in P'. destruct l' as [|? [|? [|? ?]]]; cbn in P'; try lia. reflexivity.
    - destruct l as [|z [|? ?]]; try reflexivity. inversion F as [|? ? A1 F1]; subst. inversion F1 as [|? ? A2 F2]; subst.
      inversion F2 as [|? ? A3 _]; subst. apply H12; congruence.
    - rewrite IHP1 by exact F. apply IHP2. eapply Permutation_Forall; eauto. }
  exact (X _ _ P ltac:(repeat constructor; assumption) 0).
Qed.

Lemma gram_2d x0 x1 y0 y1 z0 z1 :
  gram_area [x0; x1] [y0; y1] [z0; z1] = Rabs ((y0 - x0) * (z1 - x1) - (y1 - x1) * (z0 - x0)) / 2.
Proof.
  unfold gram_area, dot, sumR, vsub, vzip. cbn. f_equal.
  rewrite <- sqrt_Rsqr_abs. f_equal. unfold Rsqr. ring.
Qed.

Lemma gram_3d p q r :
  gram_area (list3 p) (list3 q) (list3 r) =
  sqrt (dot3R (cross3R (add3R q (scale3R (-1) p)) (add3R r (scale3R (-1) p)))
              (cross3R (add3R q (scale3R (-1) p)) (add3R r (scale3R (-1) p)))) / 2.
Proof.
  destruct p as [[? ?] ?], q as [[? ?] ?], r as [[? ?] ?].
  unfold gram_area, dot, sumR, vsub, vzip. cbn. f_equal. f_equal. ring.
Qed.

Lemma dot_self_zero : forall u, dot u u = 0 <-> Forall (fun x => x = 0) u.
Proof.
  induction u as [|x u IH].
  - split; [constructor|]. reflexivity.
  - rewrite dot_cons. pose proof (dot_self_nonneg u). pose proof (Rle_0_sqr x) as S. unfold Rsqr in S. split.
    + intros E. assert (x * x = 0) by lra. constructor; [apply Rmult_integral in H0; tauto|]. apply IH. lra.
    + intros F. inversion F as [|? ? Hx Hu]; subst. apply IH in Hu. rewrite Hu. ring.
Qed.

Lemma gram_zero p q r : length q = length p -> length r = length p ->
  gram_area p q r = 0 <-> collinear p q r.
Proof.
  intros Hq Hr. unfold gram_area, collinear. cbn zeta.
  set (u := vsub q p). set (v := vsub r p).
  assert (LU : length v = length u) by (unfold u, v; rewrite !vsub_length; congruence).
  pose proof (gram_nonneg u v LU) as N. split.
  - intros E. assert (E0 : dot u u * dot v v - dot u v * dot u v = 0).
    { apply sqrt_eq_0; [exact N|]. lra. }
    destruct (Req_dec (dot u u) 0) as [Z|NZ].
    + exists 1, 0. split; [left; lra|]. apply dot_self_zero. rewrite (dot_lin 1 0 u v LU). rewrite Z. ring.
    + exists (- dot u v), (dot u u). split; [right; exact NZ|]. apply dot_self_zero.
      rewrite (dot_lin _ _ u v LU).
      replace (- dot u v * - dot u v * dot u u + 2 * - dot u v * dot u u * dot u v + dot u u * dot u u * dot v v)
        with (dot u u * (dot u u * dot v v - dot u v * dot u v)) by ring.
      rewrite E0. ring.
  - intros (s & t & NZ & F). apply dot_self_zero in F.
    rewrite (dot_lin s t u v LU) in F.
    assert (G0 : dot u u * dot v v - dot u v * dot u v = 0).
    { set (a := dot u u) in *. set (b := dot u v) in *. set (c := dot v v) in *.
      (* quadratic form s^2 a + 2 s t b + t^2 c = 0 with (s,t) <> 0 and ac - b^2 >= 0 *)
      assert (Q1 : (s * a + t * b) * (s * a + t * b) + t * t * (a * c - b * b) = 0).
      { replace ((s * a + t * b) * (s * a + t * b) + t * t * (a * c - b * b)) with (a * (s * s * a + 2 * s * t * b + t * t * c)) by ring.
        rewrite F. ring. }
      assert (Q2 : (t * c + s * b) * (t * c + s * b) + s * s * (a * c - b * b) = 0).
      { replace ((t * c + s * b) * (t * c + s * b) + s * s * (a * c - b * b)) with (c * (s * s * a + 2 * s * t * b + t * t * c)) by ring.
        rewrite F. ring. }
      pose proof (Rle_0_sqr (s * a + t * b)) as S1. pose proof (Rle_0_sqr (t * c + s * b)) as S2. unfold Rsqr in *.
      pose proof (Rle_0_sqr s) as S3. pose proof (Rle_0_sqr t) as S4. unfold Rsqr in *.
      assert (P1 : 0 <= t * t * (a * c - b * b)) by (apply Rmult_le_pos; assumption).
      assert (P2 : 0 <= s * s * (a * c - b * b)) by (apply Rmult_le_pos; assumption).
      destruct NZ as [Ns|Nt].
      - assert (s * s * (a * c - b * b) = 0) by lra. apply Rmult_integral in H. destruct H; [|lra].
        apply Rmult_integral in H. tauto.
      - assert (t * t * (a * c - b * b) = 0) by lra. apply Rmult_integral in H. destruct H; [|lra].
        apply Rmult_integral in H. tauto. }
    rewrite G0, sqrt_0. lra.
Qed.

(** the code, in exact arithmetic *)
Lemma map_Fin_length (p : list R) n : length p = n -> length (map Fin p) = n.
Proof. rewrite map_length. auto. Qed.

Lemma tri_area_exact (m : mem ER) b s0 s1 n p q r :
  view2 m b s0 s1 [map Fin p; map Fin q; map Fin r] ->
  length p = n -> length q = n -> length r = n -> (Z.of_nat n <= INT_MAX)%Z ->
  tri_area_core_calc earith (Z.of_nat n) m b s0 s1 = Some (Fin (gram_area p q r)).
Proof.
  intros V Lp Lq Lr Hn. rewrite (tri_area_val earith m b s0 s1 n (map Fin p) (map Fin q) (map Fin r)); rewrite ?map_length; try assumption.
  rewrite tri_val_exact by congruence. reflexivity.
Qed.

(** algebra of the textbook product *)
Ltac d3 := repeat match goal with u : (R * R * R)%type |- _ => destruct u as [[? ?] ?] end; cbn.
Lemma cross3_orth u v : dot3R u (cross3R u v) = 0 /\ dot3R v (cross3R u v) = 0.
Proof. d3. split; ring. Qed.
Lemma cross3_anti u v : cross3R v u = scale3R (-1) (cross3R u v).
Proof. d3. f_equal; [f_equal|]; ring. Qed.
Lemma cross3_lin a b u u' v :
  cross3R (add3R (scale3R a u) (scale3R b u')) v = add3R (scale3R a (cross3R u v)) (scale3R b (cross3R u' v)).
Proof. d3. f_equal; [f_equal|]; ring. Qed.
Lemma cross3_lin_r a b u v v' :
  cross3R u (add3R (scale3R a v) (scale3R b v')) = add3R (scale3R a (cross3R u v)) (scale3R b (cross3R u v')).
Proof. d3. f_equal; [f_equal|]; ring. Qed.
Lemma cross3_lagrange u v :
  dot3R (cross3R u v) (cross3R u v) = dot3R u u * dot3R v v - dot3R u v * dot3R u v.
Proof. d3. ring. Qed.
Lemma cross3_jacobi u v w :
  add3R (cross3R u (cross3R v w)) (add3R (cross3R v (cross3R w u)) (cross3R w (cross3R u v))) = (0, 0, 0).
Proof. d3. f_equal; [f_equal|]; ring. Qed.
