(** Property theorems C32, C34, C45: rounding errors of linear_interp1d, cross2, cross3, abs_squared, abssq *)
From Coq Require Import ZArith Reals List Bool Lia Lra SpecFloat.
From Flocq Require Import Core BinarySingleNaN Relative.
From Verif Require Import CSem Num M_Stat M_Geom M_Elem M_Signal S_Stat S_Geom S_Elem S_Signal S_Line P_LineF.
Import ListNotations.
Open Scope R_scope.

(** ** C32: linear_interp1d.  IEEE arithmetic in any binary format; between two nodes, as long as
    their distance does not overflow and the result is finite, the result is within [line_err] of
    the line through them. *)
Theorem C32_general_bound :
  forall (prec emax : Z) (Hp : Prec_gt_0 prec) (He : Prec_lt_emax prec emax) (Hp1 : (1 < prec)%Z) n mx px sx0 mxp pxp sxp0 xps mfp pfp sfp0 fps mo po so rows,
  (0 < n)%nat -> (sx0 <> 0 \/ sxp0 <> 0)%Z ->
  (forall j r, nth_error rows j = Some r -> row_ok (farith prec emax Hp He) n mx px sx0 mxp pxp sxp0 xps mfp pfp sfp0 fps j r) ->
  writable mo po so (length rows) ->
  exists vs,
    writes (interp_loop (farith prec emax Hp He) (Z.of_nat (length rows)) (Z.of_nat n) mx px sx0 mxp pxp sxp0 xps mfp pfp sfp0 fps mo po so)
      mo po so vs /\
    Forall2 (fun r v => let '(x, xs, fs) := r in interp_close prec emax Hp He (fun dx _ _ => Rabs dx) xs fs x v) rows vs.
Proof. exact @interp_general_close. Qed.
Print Assumptions C32_general_bound.
Theorem C32_fast_bound :
  forall (prec emax : Z) (Hp : Prec_gt_0 prec) (He : Prec_lt_emax prec emax) (Hp1 : (1 < prec)%Z) mx px mxp pxp xps mfp pfp sfp0 fps mo po so x xs fps_l,
  xs <> [] -> mx px = Some x -> view mxp pxp xps xs -> isnanb (@Bcompare prec emax) x = false -> (forall a, In a xs -> isnanb (@Bcompare prec emax) a = false) ->
  increasing (@Bcompare prec emax) xs ->
  (forall j fs, nth_error fps_l j = Some fs -> length fs = length xs /\ view mfp (pfp + Z.of_nat j * sfp0)%Z fps fs) ->
  writable mo po so (length fps_l) ->
  exists vs,
    writes (interp_loop (farith prec emax Hp He) (Z.of_nat (length fps_l)) (Z.of_nat (length xs)) mx px 0 mxp pxp 0 xps mfp pfp sfp0 fps mo po so)
      mo po so vs /\
    Forall2 (fun fs v => interp_close prec emax Hp He (fun _ y0 y1 => Rabs (y1 - y0)) xs fs x v) fps_l vs.
Proof. exact @interp_fast_close. Qed.
Print Assumptions C32_fast_bound.
(** the two paths on the same data agree up to the two bounds *)
Theorem C32_paths_bound :
  forall (prec emax : Z) (Hp : Prec_gt_0 prec) (He : Prec_lt_emax prec emax) (Hp1 : (1 < prec)%Z) mx px mxp pxp xps mfp pfp sfp0 fps mo po so x xs fps_l mx' px' sx0' mxp' pxp' sxp0' xps' mo' po' so',
  xs <> [] -> mx px = Some x -> view mxp pxp xps xs -> isnanb (@Bcompare prec emax) x = false -> (forall a, In a xs -> isnanb (@Bcompare prec emax) a = false) ->
  increasing (@Bcompare prec emax) xs ->
  (forall j fs, nth_error fps_l j = Some fs -> length fs = length xs /\ view mfp (pfp + Z.of_nat j * sfp0)%Z fps fs) ->
  writable mo po so (length fps_l) ->
  (sx0' <> 0 \/ sxp0' <> 0)%Z ->
  (forall j fs, nth_error fps_l j = Some fs -> mx' (px' + Z.of_nat j * sx0')%Z = Some x /\ view mxp' (pxp' + Z.of_nat j * sxp0')%Z xps' xs) ->
  writable mo' po' so' (length fps_l) ->
  exists vs ws,
    writes (interp_loop (farith prec emax Hp He) (Z.of_nat (length fps_l)) (Z.of_nat (length xs)) mx px 0 mxp pxp 0 xps mfp pfp sfp0 fps mo po so) mo po so vs /\
    writes (interp_loop (farith prec emax Hp He) (Z.of_nat (length fps_l)) (Z.of_nat (length xs)) mx' px' sx0' mxp' pxp' sxp0' xps' mfp pfp sfp0 fps mo' po' so') mo' po' so' ws /\
    forall j fs v w, nth_error fps_l j = Some fs -> nth_error vs j = Some v -> nth_error ws j = Some w ->
      forall k x0 x1 y0 y1 y,
      nth_error xs k = Some x0 -> nth_error xs (k + 1) = Some x1 ->
      nth_error fs k = Some y0 -> nth_error fs (k + 1) = Some y1 ->
      ltb (@Bcompare prec emax) x0 x = true -> ltb (@Bcompare prec emax) x x1 = true ->
      is_finite (Bminus mode_NE x1 x0) = true -> is_finite v = true -> is_finite w = true ->
      on_line (B2R x0) (B2R y0) (B2R x1) (B2R y1) (B2R x) y ->
      Rabs (B2R v - B2R w) <= line_err prec emax (B2R y0) y (Rabs (B2R y1 - B2R y0)) + line_err prec emax (B2R y0) y (Rabs (B2R x - B2R x0)).
Proof. exact @interp_paths_close. Qed.
Print Assumptions C32_paths_bound.
(** finite nodes whose distance overflows: the result is 0 instead of 4, in both paths *)
Theorem C32_overflow_refuted :
  exists a b y0 y1 x : f64, is_finite a = true /\ is_finite b = true /\ is_finite x = true /\
   on_line (B2R a) (B2R y0) (B2R b) (B2R y1) (B2R x) (B2R (f64_ofZ 4)) /\
   (forall sx, In sx [0; 8]%Z ->
     f64_outs 1 (interp_loop f64_arith 1 2 (mem_of 0 8 [x]) 0 sx (mem_of 0 8 [a; b]) 0 0 8 (mem_of 0 8 [y0; y1]) 0 0 8 (mem_of 0 8 [x]) 0 8)
       = Some [Some (B2SF (f64_ofZ 0))]).
Proof. exact @interp_overflow. Qed.
Print Assumptions C32_overflow_refuted.

(** ** C34: every finite component is within [prod2_err] of the exact one *)
Theorem C34_cross3_bound :
  forall (prec emax : Z) (Hp : Prec_gt_0 prec) (He : Prec_lt_emax prec emax) (Hp1 : (1 < prec)%Z) mu pu su mv pv sv mo po so (u0 u1 u2 v0 v1 v2 : binary_float prec emax),
  view mu pu su [u0; u1; u2] -> view mv pv sv [v0; v1; v2] -> writable mo po so 3 ->
  exists w0 w1 w2,
    writes (cross3_core_calc (f_mul (farith prec emax Hp He)) (f_sub (farith prec emax Hp He)) mu pu su mv pv sv mo po so) mo po so [w0; w1; w2] /\
    (is_finite w0 = true -> Rabs (B2R w0 - (B2R u1 * B2R v2 - B2R u2 * B2R v1)) <= prod2_err prec emax (B2R u1 * B2R v2) (B2R u2 * B2R v1)) /\
    (is_finite w1 = true -> Rabs (B2R w1 - (B2R u2 * B2R v0 - B2R u0 * B2R v2)) <= prod2_err prec emax (B2R u2 * B2R v0) (B2R u0 * B2R v2)) /\
    (is_finite w2 = true -> Rabs (B2R w2 - (B2R u0 * B2R v1 - B2R u1 * B2R v0)) <= prod2_err prec emax (B2R u0 * B2R v1) (B2R u1 * B2R v0)).
Proof. exact @cross3_close. Qed.
Print Assumptions C34_cross3_bound.
Theorem C34_cross2_bound :
  forall (prec emax : Z) (Hp : Prec_gt_0 prec) (He : Prec_lt_emax prec emax) (Hp1 : (1 < prec)%Z) mu pu su mv pv sv mo po (u0 u1 v0 v1 : binary_float prec emax),
  view mu pu su [u0; u1] -> view mv pv sv [v0; v1] -> mo po <> None ->
  exists w,
    writes (cross2_core_calc (f_mul (farith prec emax Hp He)) (f_sub (farith prec emax Hp He)) mu pu su mv pv sv mo po) mo po 0 [w] /\
    (is_finite w = true -> Rabs (B2R w - (B2R u0 * B2R v1 - B2R u1 * B2R v0)) <= prod2_err prec emax (B2R u0 * B2R v1) (B2R u1 * B2R v0)).
Proof. exact @cross2_close. Qed.
Print Assumptions C34_cross2_bound.

(** ** C45: abs_squared and abssq *)
Theorem C45_abs_squared_bound :
  forall (prec emax : Z) (Hp : Prec_gt_0 prec) (He : Prec_lt_emax prec emax) (Hp1 : (1 < prec)%Z) (x y : binary_float prec emax),
  is_finite (abs_squared_complex (farith prec emax Hp He) (x, y)) = true ->
     Rabs (B2R (abs_squared_complex (farith prec emax Hp He) (x, y)) - (B2R x ^ 2 + B2R y ^ 2)) <= prod2_err prec emax (B2R x ^ 2) (B2R y ^ 2).
Proof. exact @abs_squared_bound. Qed.
Print Assumptions C45_abs_squared_bound.
Theorem C45_abssq_complex_bound :
  forall (prec emax : Z) (Hp : Prec_gt_0 prec) (He : Prec_lt_emax prec emax) (Hp1 : (1 < prec)%Z) sz mi pi si (x : list (binary_float prec emax * binary_float prec emax)) mo po so,
  cview mi pi si sz x -> writable mo po so (length x) ->
  exists vs, writes (abssq_complex_loop (farith prec emax Hp He) sz (Z.of_nat (length x)) mi pi si mo po so) mo po so vs /\
    Forall2 (fun z v => is_finite v = true ->
      Rabs (B2R v - (B2R (fst z) ^ 2 + B2R (snd z) ^ 2)) <= prod2_err prec emax (B2R (fst z) ^ 2) (B2R (snd z) ^ 2)) x vs.
Proof. exact @abssq_complex_close. Qed.
Print Assumptions C45_abssq_complex_bound.
Theorem C45_abssq_real_bound :
  forall (prec emax : Z) (Hp : Prec_gt_0 prec) (He : Prec_lt_emax prec emax) (Hp1 : (1 < prec)%Z) sz mi pi si (x : list (binary_float prec emax)) mo po so,
  view mi pi si x -> writable mo po so (length x) ->
  exists vs, writes (abssq_real_loop (farith prec emax Hp He) sz (Z.of_nat (length x)) mi pi si mo po so) mo po so vs /\
    Forall2 (fun a v => is_finite v = true -> Rabs (B2R v - B2R a ^ 2) <= u_ro radix2 prec * B2R a ^ 2 + half_eta prec emax) x vs.
Proof. exact @abssq_real_close. Qed.
Print Assumptions C45_abssq_real_bound.

(** nodes (0, 0), (3, 10), query 1 in double precision: the hypotheses hold and neither path returns 10/3 exactly *)
Example C32_bound_ex :
  let x0 := f64_ofZ 0 in let x1 := f64_ofZ 3 in let y1 := f64_ofZ 10 in let x := f64_ofZ 1 in
  increasing f64_cmp [x0; x1] /\
  ltb f64_cmp x0 x = true /\ ltb f64_cmp x x1 = true /\ is_finite (a_sub f64_arith x1 x0) = true /\
  is_finite (line_general f64_arith x0 x0 x1 y1 x) = true /\ is_finite (line_fast f64_arith x0 x0 x1 y1 x) = true /\
  on_line (B2R x0) (B2R x0) (B2R x1) (B2R y1) (B2R x) (10 / 3).
Proof.
  assert (E : forall z s, B2SF (f64_ofZ z) = s -> B2R (f64_ofZ z) = SF2R radix2 s) by (intros z s <-; symmetry; apply SF2R_B2SF).
  assert (E0 : B2R (f64_ofZ 0) = 0) by (rewrite (E 0%Z (S754_zero false)) by (vm_compute; reflexivity); reflexivity).
  assert (E1 : B2R (f64_ofZ 1) = 1) by (rewrite (E 1%Z (S754_finite false 4503599627370496 (-52))) by (vm_compute; reflexivity); unfold SF2R, F2R; simpl; lra).
  assert (E3 : B2R (f64_ofZ 3) = 3) by (rewrite (E 3%Z (S754_finite false 6755399441055744 (-51))) by (vm_compute; reflexivity); unfold SF2R, F2R; simpl; lra).
  assert (E10 : B2R (f64_ofZ 10) = 10) by (rewrite (E 10%Z (S754_finite false 5629499534213120 (-49))) by (vm_compute; reflexivity); unfold SF2R, F2R; simpl; lra).
  cbv zeta. split.
  { intros [|[|i]] [|[|j]] a b Hij Ei Ej; cbn in Ei, Ej; try lia; try discriminate; try (destruct i; discriminate); try (destruct j; discriminate).
    injection Ei as <-. injection Ej as <-. vm_compute. reflexivity. }
  repeat (split; [vm_compute; reflexivity|]). unfold on_line. rewrite E0, E1, E3, E10. field.
Qed.
(** (1, 2, 3) / 3 and (3, 1, 2) / 7 in double precision: finite components *)
Example C34_bound_ex :
  let q a b := a_div f64_arith (f64_ofZ a) (f64_ofZ b) in
  match f64_outs 3 (cross3_core_calc (f_mul f64_arith) (f_sub f64_arith) (mem_of 0 8 [q 1 3; q 2 3; q 3 3]%Z) 0 8
          (mem_of 0 8 [q 3 7; q 1 7; q 2 7]%Z) 0 8 (mem_of 0 8 (repeat (f64_ofZ 0) 3)) 0 8) with
  | Some [Some (S754_finite _ _ _); Some (S754_finite _ _ _); Some (S754_finite _ _ _)] => True | _ => False end.
Proof. vm_compute. exact I. Qed.
(** |1/3 + 5/7 i|^2 in double precision is finite *)
Example C45_bound_ex :
  is_finite (abs_squared_complex f64_arith (a_div f64_arith (f64_ofZ 1) (f64_ofZ 3), a_div f64_arith (f64_ofZ 5) (f64_ofZ 7))) = true.
Proof. vm_compute. reflexivity. Qed.
