(** Property theorems C33 (triangle areas) and C34 (cross products). *)
From Coq Require Import ZArith Reals List Bool Lia Lra Permutation.
From Flocq Require Import Core BinarySingleNaN Relative.
From Verif Require Import CSem CSemP Num NumP M_Int M_Obj M_Stat M_Geom S_Geom P_Geom P_GeomR P_GeomF P_TriF.
Import ListNotations.
Open Scope R_scope.

(** ** C33: tri_area *)
(** exact arithmetic: the result is the Gram area, whose geometry follows *)
Theorem C33_area :
  forall (m : mem ER) b s0 s1 n p q r,
  view2 m b s0 s1 [map Fin p; map Fin q; map Fin r] ->
  length p = n -> length q = n -> length r = n -> (Z.of_nat n <= INT_MAX)%Z ->
  tri_area_core_calc earith (Z.of_nat n) m b s0 s1 = Some (Fin (gram_area p q r)).
Proof. exact @tri_area_exact. Qed.
Print Assumptions C33_area.

Theorem C33_nonneg :
  forall p q r,
  0 <= gram_area p q r.
Proof. exact @gram_area_nonneg. Qed.
Print Assumptions C33_nonneg.

Theorem C33_permutation :
  forall p q r p' q' r',
  length q = length p -> length r = length p ->
   Permutation [p; q; r] [p'; q'; r'] -> gram_area p q r = gram_area p' q' r'.
Proof. exact @gram_perm. Qed.
Print Assumptions C33_permutation.

Theorem C33_translation :
  forall d p q r,
  length p = length d -> length q = length d -> length r = length d ->
   gram_area (vadd p d) (vadd q d) (vadd r d) = gram_area p q r.
Proof. exact @gram_translate. Qed.
Print Assumptions C33_translation.

Theorem C33_scaling :
  forall k p q r,
  length q = length p -> length r = length p ->
   gram_area (vscale k p) (vscale k q) (vscale k r) = k * k * gram_area p q r.
Proof. exact @gram_scale. Qed.
Print Assumptions C33_scaling.

Theorem C33_plane :
  forall x0 x1 y0 y1 z0 z1,
  gram_area [x0; x1] [y0; y1] [z0; z1] = Rabs ((y0 - x0) * (z1 - x1) - (y1 - x1) * (z0 - x0)) / 2.
Proof. exact @gram_2d. Qed.
Print Assumptions C33_plane.

Theorem C33_space :
  forall p q r,
  gram_area (list3 p) (list3 q) (list3 r) =
  sqrt (dot3R (cross3R (add3R q (scale3R (-1) p)) (add3R r (scale3R (-1) p)))
              (cross3R (add3R q (scale3R (-1) p)) (add3R r (scale3R (-1) p)))) / 2.
Proof. exact @gram_3d. Qed.
Print Assumptions C33_space.

Theorem C33_degenerate :
  forall p q r,
  length q = length p -> length r = length p ->
   gram_area p q r = 0 <-> collinear p q r.
Proof. exact @gram_zero. Qed.
Print Assumptions C33_degenerate.

(** IEEE arithmetic of every format *)
Theorem C33_permutation_ieee :
  forall (prec emax : Z) (Hp : Prec_gt_0 prec) (He : Prec_lt_emax prec emax) (m m' : mem (binary_float prec emax)) b s0 s1 b' s0' s1' n p q r p' q' r',
  view2 m b s0 s1 [p; q; r] -> view2 m' b' s0' s1' [p'; q'; r'] -> Permutation [p; q; r] [p'; q'; r'] ->
  length p = n -> length q = n -> length r = n -> (Z.of_nat n <= INT_MAX)%Z ->
  tri_area_core_calc (farith prec emax Hp He) (Z.of_nat n) m b s0 s1 = tri_area_core_calc (farith prec emax Hp He) (Z.of_nat n) m' b' s0' s1'.
Proof. exact @tri_area_perm_ieee. Qed.
Print Assumptions C33_permutation_ieee.

Theorem C33_nonneg_ieee :
  forall (prec emax : Z) (Hp : Prec_gt_0 prec) (He : Prec_lt_emax prec emax) (m : mem (binary_float prec emax)) b s0 s1 n p q r z,
  view2 m b s0 s1 [p; q; r] -> length p = n -> length q = n -> length r = n -> (Z.of_nat n <= INT_MAX)%Z ->
  tri_area_core_calc (farith prec emax Hp He) (Z.of_nat n) m b s0 s1 = Some z ->
  is_nan z = true \/ leb (@Bcompare prec emax) (a_ofZ (farith prec emax Hp He) 0) z = true.
Proof. exact @tri_area_nonneg_ieee. Qed.
Print Assumptions C33_nonneg_ieee.

Theorem C33_coincident_ieee :
  forall (prec emax : Z) (Hp : Prec_gt_0 prec) (He : Prec_lt_emax prec emax) (m : mem (binary_float prec emax)) b s0 s1 n p r d,
  view2 m b s0 s1 [p; p; r] -> length p = n -> length r = n -> (Z.of_nat n <= INT_MAX)%Z ->
  Forall (fun x => is_finite x = true) p ->
  norm_diff (farith prec emax Hp He) (Z.of_nat n) m b s0 s1 0 2 = Some d -> is_finite (a_add (farith prec emax Hp He) d d) = true ->
  exists z, tri_area_core_calc (farith prec emax Hp He) (Z.of_nat n) m b s0 s1 = Some z /\ f2e prec emax z = Fin 0.
Proof. exact @tri_area_coincident_ieee. Qed.
Print Assumptions C33_coincident_ieee.

(** In double precision the area of a degenerate triangle need not be 0 and can even be NaN:
    (0,0), (1,1), (4,4) and (0,0), (1,1), (3,3). *)
Theorem C33_degenerate_ieee_refuted :
  exists p q r r' : list f64,
    Forall (fun x => is_finite x = true) (p ++ q ++ r ++ r') /\
    map B2R p = [0; 0] /\ map B2R q = [1; 1] /\ map B2R r = [4; 4] /\ map B2R r' = [3; 3] /\
    collinear [0; 0] [1; 1] [4; 4] /\ collinear [0; 0] [1; 1] [3; 3] /\
    option_map is_nan (tri_area_core_calc f64_arith 2 (mem_of 0 8 (p ++ q ++ r)) 0 16 8) = Some true /\
    option_map (fun z => ltb f64_cmp (f64_ofZ 0) z)
      (tri_area_core_calc f64_arith 2 (mem_of 0 8 (p ++ q ++ r')) 0 16 8) = Some true.
Proof.
  exists [f64_ofZ 0; f64_ofZ 0], [f64_ofZ 1; f64_ofZ 1], [f64_ofZ 4; f64_ofZ 4], [f64_ofZ 3; f64_ofZ 3].
  assert (B0 : B2R (f64_ofZ 0) = 0) by reflexivity.
  assert (B1 : B2R (f64_ofZ 1) = 1).
  { rewrite <- SF2R_B2SF. replace (B2SF (f64_ofZ 1)) with (SpecFloat.S754_finite false 4503599627370496 (-52)) by (vm_compute; reflexivity).
    unfold SF2R, F2R. cbn -[Z.pow_pos]. change (Z.pow_pos 2 52) with 4503599627370496%Z. lra. }
  assert (B3 : B2R (f64_ofZ 3) = 3).
  { rewrite <- SF2R_B2SF. replace (B2SF (f64_ofZ 3)) with (SpecFloat.S754_finite false 6755399441055744 (-51)) by (vm_compute; reflexivity).
    unfold SF2R, F2R. cbn -[Z.pow_pos]. change (Z.pow_pos 2 51) with 2251799813685248%Z. lra. }
  assert (B4 : B2R (f64_ofZ 4) = 4).
  { rewrite <- SF2R_B2SF. replace (B2SF (f64_ofZ 4)) with (SpecFloat.S754_finite false 4503599627370496 (-50)) by (vm_compute; reflexivity).
    unfold SF2R, F2R. cbn -[Z.pow_pos]. change (Z.pow_pos 2 50) with 1125899906842624%Z. lra. }
  split; [repeat constructor|]. cbn [map]. rewrite B0, B1, B3, B4.
  do 4 (split; [reflexivity|]).
  split; [|split; [|split; vm_compute; reflexivity]].
  - exists 4, (-1). split; [left; lra|]. repeat constructor; cbn; ring.
  - exists 3, (-1). split; [left; lra|]. repeat constructor; cbn; ring.
Qed.
Print Assumptions C33_degenerate_ieee_refuted.

(** IEEE error bound in any binary format with unit roundoff u: for a triangle that is not a needle
    (each pair of sides exceeds the third by at least t, and the perimeter is at most kap * t) the
    area is right up to the factor (1 - e)^2 (1 - u)^7 .. (1 + e)^2 / (1 - u)^7, where e is the
    relative error of a side times kap.  Nothing may underflow: coordinates are equal or differ by
    enough to have a normal square, and t^4 is well above the smallest normal number. *)
Theorem C33_area_bound (prec emax : Z) (Hp : Prec_gt_0 prec) (He : Prec_lt_emax prec emax) (Hp1 : (1 < prec)%Z)
    (m : mem (binary_float prec emax)) (bp s0 s1 : Z) (p q r : list (binary_float prec emax)) (n k : nat) (t kap : R) v :
  let u := u_ro radix2 prec in
  let normal := bpow radix2 (2 - emax) in
  let P := map B2R p in let Q := map B2R q in let R := map B2R r in
  let e := (/ (1 - u) ^ (k + 1) - 1) * kap in
  view2 m bp s0 s1 [p; q; r] -> length p = n -> length q = n -> length r = n -> (Z.of_nat n <= INT_MAX)%Z ->
  (n + 3 <= 2 * k)%nat -> (2 < emax)%Z ->
  (forall x y, In (x, y) (combine p q ++ combine p r ++ combine q r) ->
     B2R x = B2R y \/ normal <= (1 - u) ^ 2 * ((B2R y - B2R x) * (B2R y - B2R x))) ->
  0 < t -> t <= side P R + side Q R - side P Q -> t <= side P Q + side Q R - side P R ->
  t <= side P Q + side P R - side Q R -> side P Q + side P R + side Q R <= kap * t ->
  e <= / 2 -> normal <= (t / 32) ^ 4 ->
  tri_area_core_calc (farith prec emax Hp He) (Z.of_nat n) m bp s0 s1 = Some v -> is_finite v = true ->
  gram_area P Q R * ((1 - e) ^ 2 * (1 - u) ^ 7) <= B2R v <= gram_area P Q R * ((1 + e) ^ 2 * / (1 - u) ^ 7).
Proof.
  intros u normal P Q R e. unfold normal. replace (2 - emax)%Z with (3 - emax - prec + prec - 1)%Z by ring.
  exact (P_TriF.tri_area_bound prec emax Hp He Hp1 m bp s0 s1 p q r n k t kap v).
Qed.
Print Assumptions C33_area_bound.

(** the triangle (0,0), (3,0), (0,4) in double precision meets every hypothesis with t = 2, kap = 6, k = 3 *)
Example C33_ex_bound :
  let p := [f64_ofZ 0; f64_ofZ 0] in let q := [f64_ofZ 3; f64_ofZ 0] in let r := [f64_ofZ 0; f64_ofZ 4] in
  let u := u_ro radix2 53 in
  let normal := bpow radix2 (2 - 1024) in
  let P := map B2R p in let Q := map B2R q in let R := map B2R r in
  view2 (mem_of 0 8 (p ++ q ++ r)) 0 16 8 [p; q; r] /\
  (forall x y, In (x, y) (combine p q ++ combine p r ++ combine q r) ->
     B2R x = B2R y \/ normal <= (1 - u) ^ 2 * ((B2R y - B2R x) * (B2R y - B2R x))) /\
  2 <= side P R + side Q R - side P Q /\ 2 <= side P Q + side Q R - side P R /\
  2 <= side P Q + side P R - side Q R /\ side P Q + side P R + side Q R <= 6 * 2 /\
  (/ (1 - u) ^ (3 + 1) - 1) * 6 <= / 2 /\ normal <= (2 / 32) ^ 4 /\
  option_map is_finite (tri_area_core_calc f64_arith 2 (mem_of 0 8 (p ++ q ++ r)) 0 16 8) = Some true.
Proof.
  cbv zeta.
  assert (B0 : B2R (f64_ofZ 0) = 0) by reflexivity.
  assert (B3 : B2R (f64_ofZ 3) = 3).
  { rewrite <- SF2R_B2SF. replace (B2SF (f64_ofZ 3)) with (SpecFloat.S754_finite false 6755399441055744 (-51)) by (vm_compute; reflexivity).
    unfold SF2R, F2R. cbn -[Z.pow_pos]. change (Z.pow_pos 2 51) with 2251799813685248%Z. lra. }
  assert (B4 : B2R (f64_ofZ 4) = 4).
  { rewrite <- SF2R_B2SF. replace (B2SF (f64_ofZ 4)) with (SpecFloat.S754_finite false 4503599627370496 (-50)) by (vm_compute; reflexivity).
    unfold SF2R, F2R. cbn -[Z.pow_pos]. change (Z.pow_pos 2 50) with 1125899906842624%Z. lra. }
  assert (U : 0 <= u_ro radix2 53 <= / 1000).
  { unfold u_ro. split; [apply Rmult_le_pos; [lra|apply bpow_ge_0]|].
    apply Rle_trans with (/ 2 * bpow radix2 (-10)); [apply Rmult_le_compat_l; [lra|]; apply bpow_le; lia|]. simpl. lra. }
  assert (N : bpow radix2 (2 - 1024) <= / 1000000).
  { apply Rle_trans with (bpow radix2 (-20)); [apply bpow_le; lia|]. simpl. lra. }
  assert (S3 : sqrt 9 = 3) by (replace 9 with (3 * 3) by ring; apply sqrt_square; lra).
  assert (S4 : sqrt 16 = 4) by (replace 16 with (4 * 4) by ring; apply sqrt_square; lra).
  assert (S5 : sqrt 25 = 5) by (replace 25 with (5 * 5) by ring; apply sqrt_square; lra).
  set (w := 1 - u_ro radix2 53) in *. assert (W : 999 / 1000 <= w <= 1) by (unfold w; lra).
  cbn [map]. rewrite B0, B3, B4.
  assert (D1 : side [0; 0] [3; 0] = 3). { unfold side, dot, sumR, vsub, vzip. cbn. etransitivity; [|exact S3]. f_equal. ring. }
  assert (D2 : side [0; 0] [0; 4] = 4). { unfold side, dot, sumR, vsub, vzip. cbn. etransitivity; [|exact S4]. f_equal. ring. }
  assert (D3 : side [3; 0] [0; 4] = 5). { unfold side, dot, sumR, vsub, vzip. cbn. etransitivity; [|exact S5]. f_equal. ring. }
  rewrite D1, D2, D3.
  assert (W2 : (999 / 1000) ^ 2 <= w ^ 2) by (apply pow_incr; lra).
  assert (W4 : (999 / 1000) ^ 4 <= w ^ (3 + 1)) by (apply pow_incr; lra).
  split; [|split; [|split; [lra|split; [lra|split; [lra|split; [lra|split; [|split; [lra|]]]]]]]].
  - intros i j row x Hi Hj. destruct i as [|[|[|[|i]]]]; cbn [nth_error] in Hi; try discriminate; injection Hi as <-;
      destruct j as [|[|[|j]]]; cbn [nth_error] in Hj; try discriminate; injection Hj as <-; reflexivity.
  - intros x y H. cbn [combine app In] in H.
    repeat match goal with H : _ \/ _ |- _ => destruct H as [H|H] end; try contradiction;
      injection H as <- <-; rewrite ?B0, ?B3, ?B4; (left; reflexivity) || (right; lra).
  - assert (/ w ^ (3 + 1) <= / (999 / 1000) ^ 4) by (apply Rinv_le_contravar; lra). lra.
  - vm_compute. reflexivity.
Qed.

(** the indexed form *)
Local Open Scope Z_scope.
Theorem C33_indexed :
  forall {T : Type} (A : arith T) (m m' : mem T) b s0 s1 b' s0' s1' n rows (mi : mem Z) pi si i0 i1 i2 j0 j1 j2 p q r,
  view2 m b s0 s1 rows -> Forall (fun row => length row = n) rows -> Z.of_nat n <= INT_MAX ->
  view mi pi si [i0; i1; i2] ->
  py_index (Z.of_nat (length rows)) i0 = Some j0 -> nth_error rows (Z.to_nat j0) = Some p ->
  py_index (Z.of_nat (length rows)) i1 = Some j1 -> nth_error rows (Z.to_nat j1) = Some q ->
  py_index (Z.of_nat (length rows)) i2 = Some j2 -> nth_error rows (Z.to_nat j2) = Some r ->
  view2 m' b' s0' s1' [p; q; r] ->
  tri_area_indexed_core_calc A (Z.of_nat (length rows)) (Z.of_nat n) m b s0 s1 mi pi si =
    tri_area_core_calc A (Z.of_nat n) m' b' s0' s1' /\
  tri_area_core_calc A (Z.of_nat n) m' b' s0' s1' <> None.
Proof. exact @tri_indexed_rows. Qed.
Print Assumptions C33_indexed.
Local Close Scope Z_scope.

Local Open Scope Z_scope.
Theorem C33_indexed_out_of_range :
  forall {T : Type} (A : arith T) (m : mem T) b s0 s1 mrows n (mi : mem Z) pi si i0 i1 i2,
  0 <= mrows -> view mi pi si [i0; i1; i2] ->
  py_index mrows i0 = None \/ py_index mrows i1 = None \/ py_index mrows i2 = None ->
  tri_area_indexed_core_calc A mrows n m b s0 s1 mi pi si = Some (a_nan A).
Proof. exact @tri_indexed_out. Qed.
Print Assumptions C33_indexed_out_of_range.
Local Close Scope Z_scope.

Local Open Scope Z_scope.
Theorem C33_indexed_no_stray_read :
  forall {T : Type} (A : arith T) (m m' : mem T) b s0 s1 n rows (mi : mem Z) pi si i0 i1 i2,
  view2 m b s0 s1 rows -> view2 m' b s0 s1 rows -> Forall (fun row => length row = n) rows -> Z.of_nat n <= INT_MAX ->
  view mi pi si [i0; i1; i2] ->
  tri_area_indexed_core_calc A (Z.of_nat (length rows)) (Z.of_nat n) m b s0 s1 mi pi si =
  tri_area_indexed_core_calc A (Z.of_nat (length rows)) (Z.of_nat n) m' b s0 s1 mi pi si /\
  tri_area_indexed_core_calc A (Z.of_nat (length rows)) (Z.of_nat n) m b s0 s1 mi pi si <> None.
Proof. exact @tri_indexed_frame. Qed.
Print Assumptions C33_indexed_no_stray_read.
Local Close Scope Z_scope.

Local Open Scope Z_scope.
Example C33_ex_view : view2 (mem_of 0 8 (map Fin [0; 0; 3; 0; 0; 4]%R)) 0 16 8
    [map Fin [0; 0]; map Fin [3; 0]; map Fin [0; 4]]%R.
Proof.
  intros i j row x Hi Hj. destruct i as [|[|[|[|i]]]]; cbn in Hi; try discriminate; injection Hi as <-;
    destruct j as [|[|[|j]]]; cbn in Hj; try discriminate; injection Hj as <-; reflexivity.
Qed.
Example C33_ex_area : (gram_area [0; 0] [3; 0] [0; 4] = 6)%R.
Proof. rewrite gram_2d. rewrite Rabs_right; [field|lra]. Qed.
Example C33_ex_index : map (py_index 5) [0; 4; 5; -1; -5; -6] = [Some 0; Some 4; None; Some 4; Some 0; None].
Proof. reflexivity. Qed.
Example C33_ex_f64 :
  let m := mem_of 0 8 (map f64_ofZ [0; 0; 3; 0; 0; 4; 9; 9]) in
  option_map B2SF (tri_area_core_calc f64_arith 2 m 0 16 8) = Some (B2SF (f64_ofZ 6)) /\
  option_map B2SF (tri_area_indexed_core_calc f64_arith 4 2 m 0 16 8 (mem_of 0 8 [-3; 2; -4]) 0 8) = Some (B2SF (f64_ofZ 6)) /\
  option_map is_nan (tri_area_indexed_core_calc f64_arith 4 2 m 0 16 8 (mem_of 0 8 [-3; 2; 4]) 0 8) = Some true.
Proof. repeat split; vm_compute; reflexivity. Qed.
Local Close Scope Z_scope.

(** ** C34: cross2, cross3 *)
Local Open Scope Z_scope.
Theorem C34_cross3 :
  forall mu pu su mv pv sv mo po so u v,
  view mu pu su (list3 (map3 Fin u)) -> view mv pv sv (list3 (map3 Fin v)) -> writable mo po so 3 ->
  writes (cross3_core_calc (f_mul earith) (f_sub earith) mu pu su mv pv sv mo po so) mo po so
    (list3 (map3 Fin (cross3R u v))).
Proof. exact @cross3_exact. Qed.
Print Assumptions C34_cross3.
Local Close Scope Z_scope.

Local Open Scope Z_scope.
Theorem C34_cross2 :
  forall mu pu su mv pv sv mo po u0 u1 v0 v1,
  view mu pu su [Fin u0; Fin u1] -> view mv pv sv [Fin v0; Fin v1] -> mo po <> None ->
  writes (cross2_core_calc (f_mul earith) (f_sub earith) mu pu su mv pv sv mo po) mo po 0
    [Fin (u0 * v1 - u1 * v0)].
Proof. exact @cross2_exact. Qed.
Print Assumptions C34_cross2.
Local Close Scope Z_scope.

Theorem C34_orthogonal :
  forall u v,
  dot3R u (cross3R u v) = 0 /\ dot3R v (cross3R u v) = 0.
Proof. exact @cross3_orth. Qed.
Print Assumptions C34_orthogonal.

Theorem C34_antisymmetric :
  forall u v,
  cross3R v u = scale3R (-1) (cross3R u v).
Proof. exact @cross3_anti. Qed.
Print Assumptions C34_antisymmetric.

Theorem C34_linear_left :
  forall a b u u' v,
  cross3R (add3R (scale3R a u) (scale3R b u')) v = add3R (scale3R a (cross3R u v)) (scale3R b (cross3R u' v)).
Proof. exact @cross3_lin. Qed.
Print Assumptions C34_linear_left.

Theorem C34_linear_right :
  forall a b u v v',
  cross3R u (add3R (scale3R a v) (scale3R b v')) = add3R (scale3R a (cross3R u v)) (scale3R b (cross3R u v')).
Proof. exact @cross3_lin_r. Qed.
Print Assumptions C34_linear_right.

Theorem C34_lagrange :
  forall u v,
  dot3R (cross3R u v) (cross3R u v) = dot3R u u * dot3R v v - dot3R u v * dot3R u v.
Proof. exact @cross3_lagrange. Qed.
Print Assumptions C34_lagrange.

Theorem C34_jacobi :
  forall u v w,
  add3R (cross3R u (cross3R v w)) (add3R (cross3R v (cross3R w u)) (cross3R w (cross3R u v))) = (0, 0, 0).
Proof. exact @cross3_jacobi. Qed.
Print Assumptions C34_jacobi.

(** the same polynomials in any arithmetic; IEEE antisymmetry *)
Local Open Scope Z_scope.
Theorem C34_cross3_polynomial :
  forall {T : Type} (A : arith T) mu pu su mv pv sv mo po so u0 u1 u2 v0 v1 v2,
  view mu pu su [u0; u1; u2] -> view mv pv sv [v0; v1; v2] -> writable mo po so 3 ->
  writes (cross3_core_calc (f_mul A) (f_sub A) mu pu su mv pv sv mo po so) mo po so
    [a_sub A (a_mul A u1 v2) (a_mul A u2 v1); a_sub A (a_mul A u2 v0) (a_mul A u0 v2); a_sub A (a_mul A u0 v1) (a_mul A u1 v0)].
Proof. exact @cross3_arith. Qed.
Print Assumptions C34_cross3_polynomial.
Local Close Scope Z_scope.

Local Open Scope Z_scope.
Theorem C34_cross2_polynomial :
  forall {T : Type} (A : arith T) mu pu su mv pv sv mo po u0 u1 v0 v1,
  view mu pu su [u0; u1] -> view mv pv sv [v0; v1] -> mo po <> None ->
  writes (cross2_core_calc (f_mul A) (f_sub A) mu pu su mv pv sv mo po) mo po 0
    [a_sub A (a_mul A u0 v1) (a_mul A u1 v0)].
Proof. exact @cross2_arith. Qed.
Print Assumptions C34_cross2_polynomial.
Local Close Scope Z_scope.

Theorem C34_cross3_antisymmetric_ieee :
  forall (prec emax : Z) (Hp : Prec_gt_0 prec) (He : Prec_lt_emax prec emax) mu pu su mv pv sv mo po so (u v : binary_float prec emax * binary_float prec emax * binary_float prec emax),
  view mu pu su (list3 u) -> view mv pv sv (list3 v) -> writable mo po so 3 ->
  exists w w', writes (cross3_core_calc (f_mul (farith prec emax Hp He)) (f_sub (farith prec emax Hp He)) mu pu su mv pv sv mo po so) mo po so (list3 w) /\
    writes (cross3_core_calc (f_mul (farith prec emax Hp He)) (f_sub (farith prec emax Hp He)) mv pv sv mu pu su mo po so) mo po so (list3 w') /\
    map3 (f2e prec emax) w' = map3 (fun x => eopp (f2e prec emax x)) w.
Proof. exact @cross3_anti_ieee. Qed.
Print Assumptions C34_cross3_antisymmetric_ieee.

Theorem C34_cross3_self_ieee :
  forall (prec emax : Z) (Hp : Prec_gt_0 prec) (He : Prec_lt_emax prec emax) mu pu su mv pv sv mo po so (u : binary_float prec emax * binary_float prec emax * binary_float prec emax),
  view mu pu su (list3 u) -> view mv pv sv (list3 u) -> writable mo po so 3 ->
  exists w, writes (cross3_core_calc (f_mul (farith prec emax Hp He)) (f_sub (farith prec emax Hp He)) mu pu su mv pv sv mo po so) mo po so (list3 w) /\
    Forall (fun x => f2e prec emax x = Fin 0 \/ f2e prec emax x = ENaN) (list3 w).
Proof. exact @cross3_self_ieee. Qed.
Print Assumptions C34_cross3_self_ieee.

Theorem C34_cross2_antisymmetric_ieee :
  forall (prec emax : Z) (Hp : Prec_gt_0 prec) (He : Prec_lt_emax prec emax) mu pu su mv pv sv mo po u0 u1 v0 v1,
  view mu pu su [u0; u1] -> view mv pv sv [v0; v1] -> mo po <> None ->
  exists w w', writes (cross2_core_calc (f_mul (farith prec emax Hp He)) (f_sub (farith prec emax Hp He)) mu pu su mv pv sv mo po) mo po 0 [w] /\
    writes (cross2_core_calc (f_mul (farith prec emax Hp He)) (f_sub (farith prec emax Hp He)) mv pv sv mu pu su mo po) mo po 0 [w'] /\
    f2e prec emax w' = eopp (f2e prec emax w).
Proof. exact @cross2_anti_ieee. Qed.
Print Assumptions C34_cross2_antisymmetric_ieee.

(** integers: exact when 2*B*B fits the type; undefined exactly on overflow *)
Local Open Scope Z_scope.
Theorem C34_cross3_int :
  forall t B mu pu su mv pv sv mo po so u v,
  imin t <= - (2 * B * B) -> 2 * B * B <= imax t ->
  view mu pu su (list3 u) -> view mv pv sv (list3 v) -> writable mo po so 3 ->
  Forall (fun x => Z.abs x <= B) (list3 u) -> Forall (fun x => Z.abs x <= B) (list3 v) ->
  writes (cross3_core_calc (c_mul t) (c_sub t) mu pu su mv pv sv mo po so) mo po so (list3 (cross3Z u v)).
Proof. exact @cross3_int. Qed.
Print Assumptions C34_cross3_int.
Local Close Scope Z_scope.

Local Open Scope Z_scope.
Theorem C34_cross2_int :
  forall t B mu pu su mv pv sv mo po u0 u1 v0 v1,
  imin t <= - (2 * B * B) -> 2 * B * B <= imax t ->
  view mu pu su [u0; u1] -> view mv pv sv [v0; v1] -> mo po <> None ->
  Z.abs u0 <= B -> Z.abs u1 <= B -> Z.abs v0 <= B -> Z.abs v1 <= B ->
  writes (cross2_core_calc (c_mul t) (c_sub t) mu pu su mv pv sv mo po) mo po 0 [u0 * v1 - u1 * v0].
Proof. exact @cross2_int. Qed.
Print Assumptions C34_cross2_int.
Local Close Scope Z_scope.

Local Open Scope Z_scope.
Theorem C34_cross2_int_defined :
  forall t mu pu su mv pv sv mo po u0 u1 v0 v1,
  view mu pu su [u0; u1] -> view mv pv sv [v0; v1] -> mo po <> None ->
  (cross2_core_calc (c_mul t) (c_sub t) mu pu su mv pv sv mo po <> None <->
   in_range t (u0 * v1) = true /\ in_range t (u1 * v0) = true /\ in_range t (u0 * v1 - u1 * v0) = true).
Proof. exact @cross2_int_defined. Qed.
Print Assumptions C34_cross2_int_defined.
Local Close Scope Z_scope.

(** objects *)
Local Open Scope Z_scope.
Theorem C34_cross3_object :
  forall (O : aoracle) mu pu su mv pv sv mo po so u v,
  view mu pu su (list3 u) -> view mv pv sv (list3 v) -> writable mo po so 3 ->
  exists mo' w', cross3_core_calc_object O mu pu su mv pv sv mo po so (mkAW [] false) = Some (mo', w') /\
    (aerr w' = true -> mo' = mo) /\
    (aerr w' = false -> exists r, wrote mo mo' po so (list3 r) /\
       forall X (val : obj -> X) mul sub, faithful O val mul sub -> map3 val r = cross3X mul sub (map3 val u) (map3 val v)) /\
    (never_raises O -> aerr w' = false).
Proof. exact @cross3_object_res. Qed.
Print Assumptions C34_cross3_object.
Local Close Scope Z_scope.

Local Open Scope Z_scope.
Theorem C34_cross2_object :
  forall (O : aoracle) mu pu su mv pv sv mo po u0 u1 v0 v1,
  view mu pu su [u0; u1] -> view mv pv sv [v0; v1] -> mo po <> None ->
  exists mo' w', cross2_core_calc_object O mu pu su mv pv sv mo po (mkAW [] false) = Some (mo', w') /\
    (aerr w' = true -> mo' = mo) /\
    (aerr w' = false -> exists r, wrote mo mo' po 0 [r] /\
       forall X (val : obj -> X) mul sub, faithful O val mul sub ->
         val r = sub (mul (val u0) (val v1)) (mul (val u1) (val v0))) /\
    (never_raises O -> aerr w' = false).
Proof. exact @cross2_object_res. Qed.
Print Assumptions C34_cross2_object.
Local Close Scope Z_scope.

Local Open Scope Z_scope.
Example C34_ex_ranges : imin int32 <= - (2 * 32767 * 32767) /\ 2 * 32767 * 32767 <= imax int32 /\
  imin int64 <= - (2 * 2147483647 * 2147483647) /\ 2 * 2147483647 * 2147483647 <= imax int64.
Proof. vm_compute; repeat split; discriminate. Qed.
Example C34_ex_cross3 :
  option_map (fun m => map m [0; 4; 8]) (cross3_core_calc (c_mul int32) (c_sub int32)
     (mem_of 0 4 [1; 2; -2]) 0 4 (mem_of 0 4 [1; -3; 5]) 8 (-4) (mem_of 0 4 [0; 0; 0]) 0 4)
  = Some [Some (-4); Some (-11); Some (-13)].
Proof. reflexivity. Qed.
Example C34_ex_overflow :
  cross2_core_calc (c_mul int32) (c_sub int32) (mem_of 0 4 [46341; 0]) 0 4 (mem_of 0 4 [0; 46341]) 0 4 (mem_of 0 4 [0]) 0 = None.
Proof. reflexivity. Qed.
(** an object type whose operators work (val = identity), and one whose second product raises *)
Definition ex_obj_ok : aoracle := fun h => match h with (OMul, a, b) :: _ => Some (a * b) | (OSub, a, b) :: _ => Some (a - b) | [] => Some 0 end.
Definition ex_obj_raise : aoracle := fun h => if (length h =? 2)%nat then None else ex_obj_ok h.
Example C34_ex_faithful : faithful ex_obj_ok (fun x => x) Z.mul Z.sub /\ never_raises ex_obj_ok.
Proof.
  split.
  - intros op a b h r H. destruct op; cbn in H; injection H as <-; reflexivity.
  - intros [|[[[] ?] ?] ?]; discriminate.
Qed.
Example C34_ex_object :
  option_map (fun r => (fst r 0, aerr (snd r))) (cross2_core_calc_object ex_obj_ok (mem_of 0 8 [2; 3]) 0 8 (mem_of 0 8 [5; 7]) 0 8
     (mem_of 0 8 [100]) 0 (mkAW [] false)) = Some (Some (-1), false) /\
  option_map (fun r => (fst r 0, aerr (snd r))) (cross2_core_calc_object ex_obj_raise (mem_of 0 8 [2; 3]) 0 8 (mem_of 0 8 [5; 7]) 0 8
     (mem_of 0 8 [100]) 0 (mkAW [] false)) = Some (Some 100, true).
Proof. split; reflexivity. Qed.
Local Close Scope Z_scope.
