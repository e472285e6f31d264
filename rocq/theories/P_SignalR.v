(** Counterexamples and combined statements for the signal gufuncs. *)
From Coq Require Import ZArith Reals List Bool Lia Lra SpecFloat.
From Flocq Require Import Core BinarySingleNaN.
From Verif Require Import CSem CSemP Num NumP M_Signal S_Signal P_Fill P_Relay P_Unwrap P_Sos P_Interp.
Import ListNotations.
Open Scope Z_scope.

(** fillnan1d next to an infinity *)
Lemma fillnan_inf_refuted :
  exists (x : list f64) i, (i < length x)%nat /\ (exists v, In v x /\ is_nan v = false) /\
    option_map (fun mo : mem f64 => option_map is_nan (mo (Z.of_nat i * 8)))
      (fillnan1d_core f64_arith f80_arith f64_to_f80 f80_to_f64 (Z.of_nat (length x)) (mem_of 0 8 x) 0 8
                  (mem_of 0 8 x) 0 8) = Some (Some true).
Proof.
  exists [B754_infinity false; B754_nan; f64_ofZ 1], 1%nat. split; [cbn; lia|].
  split; [exists (B754_infinity false); split; [left; reflexivity|reflexivity]|].
  vm_compute. reflexivity.
Qed.

(** backlash in exact arithmetic, with monotonicity of the response *)
Lemma backlash_exact_full mx px sx x w init mo po so :
  (0 <= w)%R -> view mx px sx (map Fin x) -> writable mo po so (length x) ->
  exists ys, length ys = length x /\
    writes (backlash_core earith (Z.of_nat (length x)) mx px sx (Fin w) (Fin init) mo po so) mo po so (map Fin ys) /\
    backlash_run (w / 2) init x ys /\
    (forall i xi xj yi yj, nth_error x i = Some xi -> nth_error x (S i) = Some xj ->
       nth_error ys i = Some yi -> nth_error ys (S i) = Some yj ->
       (xi <= xj -> yi <= yj)%R /\ (xj <= xi -> yj <= yi)%R).
Proof.
  intros Hw V W. destruct (backlash_exact mx px sx x w init mo po so Hw V W) as (ys & HL & Wr & R).
  exists ys. split; [exact HL|]. split; [exact Wr|]. split; [exact R|].
  intros i xi xj yi yj H1 H2 H3 H4. exact (backlash_monotone (w / 2) init x ys i xi xj yi yj ltac:(lra) R H1 H2 H3 H4).
Qed.

(** unwrap: counterexamples in double precision *)
Notation funwrap n x P mo := (unwrap_core f64_arith f64_arith (fun v : f64 => v) fsignbit ftrunc n (mem_of 0 8 x) 0 8 P mo 0 8).
(** an infinite first sample is not detected: the conversion to int is undefined *)
Lemma unwrap_inf_first_refuted :
  exists x : list f64, is_nan (hd B754_nan x) = false /\ (length x = 2)%nat /\
    funwrap 2 x (f64_ofZ 1) (mem_of 0 8 x) = None.
Proof. exists [B754_infinity false; f64_ofZ 1]. vm_compute. auto. Qed.

(** finite data for which the number of periods does not fit in an int *)
Lemma unwrap_overflow_refuted :
  exists x : list f64, (forall v, In v x -> is_finite v = true) /\ funwrap (Z.of_nat (length x)) x (f64_ofZ 1) (mem_of 0 8 x) = None.
Proof.
  exists [f64_ofZ 0; f64_ofZ (2 ^ 40)]. split; [|vm_compute; reflexivity].
  intros v [<-|[<-|[]]]; vm_compute; reflexivity.
Qed.

(** unwrapping twice is not the same as once when a step is exactly half a period *)
Lemma unwrap_idempotent_refuted :
  exists (x y z : list f64), length x = length y /\ length y = length z /\
    f64_outs (length x) (funwrap (Z.of_nat (length x)) x (f64_ofZ 4) (mem_of 0 8 x)) = Some (map (fun v => Some (B2SF v)) y) /\
    f64_outs (length y) (funwrap (Z.of_nat (length y)) y (f64_ofZ 4) (mem_of 0 8 y)) = Some (map (fun v => Some (B2SF v)) z) /\
    map B2SF y <> map B2SF z.
Proof.
  exists [f64_ofZ 0; f64_ofZ 2], [f64_ofZ 0; f64_ofZ (-2)], [f64_ofZ 0; f64_ofZ 2].
  split; [reflexivity|]. split; [reflexivity|]. split; [vm_compute; reflexivity|]. split; [vm_compute; reflexivity|].
  vm_compute. discriminate.
Qed.

(** in double precision a step just below half a period is shifted by a period *)
Lemma unwrap_small_step_refuted :
  exists x1 : f64, is_finite x1 = true /\ a_cmp f64_arith x1 (a_div f64_arith (f64_ofZ 1) (f64_ofZ 2)) = Some Lt /\
    a_cmp f64_arith (f64_ofZ 0) x1 = Some Lt /\
    f64_outs 2 (funwrap 2 [f64_ofZ 0; x1] (f64_ofZ 1) (mem_of 0 8 [f64_ofZ 0; x1])) =
      Some [Some (B2SF (f64_ofZ 0)); Some (B2SF (a_sub f64_arith x1 (f64_ofZ 1)))].
Proof.
  exists (a_div f64_arith (f64_ofZ (2 ^ 53 - 1)) (f64_ofZ (2 ^ 54))).
  split; [vm_compute; reflexivity|]. split; [vm_compute; reflexivity|]. split; vm_compute; reflexivity.
Qed.

(** sosfilter with no sections leaves the output untouched *)
Lemma sosfilter_empty_refuted :
  forall {T} (A : arith T) sz n ms ps ss0 ss1 mx px sx mo po so xs,
    Z.of_nat (length xs) = n -> view mx px sx xs ->
    sosfilter_core A sz 0 n ms ps ss0 ss1 mx px sx mo po so = Some mo.
Proof.
  intros T A sz n ms ps ss0 ss1 mx px sx mo po so xs <- V. unfold sosfilter_core.
  assert (E : (if (ss0 =? 6 * sz) && (ss1 =? sz) && (sx =? sz) && (so =? sz)
          then sosfilter_ic_contig_core A sz 0 (Z.of_nat (length xs)) ms ps mx px None mo po (calloc A sz 0) 0
          else sosfilter_ic_core A sz 0 (Z.of_nat (length xs)) ms ps ss0 ss1 mx px sx None mo po so (calloc A sz 0) 0 (2 * sz) sz)
      = sos_outer A 0 (Z.of_nat (length xs)) ms ps ss0 ss1 mx px sx mo po so (calloc A sz 0) 0 (2 * sz) sz).
  { rewrite contig_outer, ic_core_none.
    destruct ((ss0 =? 6 * sz) && (ss1 =? sz) && (sx =? sz) && (so =? sz)) eqn:E; [|reflexivity].
    rewrite !andb_true_iff in E. destruct E as (((E1 & E2) & E3) & E4).
    apply Z.eqb_eq in E1, E2, E3, E4. subst. reflexivity. }
  rewrite E. clear E. unfold sos_outer.
  rewrite (for_each_view mx px sx xs _ (fun _ _ st => Some st) (mo, calloc A sz 0) V).
  - assert (G : forall k (st : mem T * mem T), liter k xs (fun _ _ st => Some st) st = Some st).
    { clear. induction xs as [|x xs IH]; intros k st; [reflexivity|]. cbn [liter bind]. apply IH. }
    rewrite G. reflexivity.
  - intros k [a b] v _ Hg. rewrite Hg. reflexivity.
Qed.

(** linear_interp1d *)
(** the path for a common x rounds differently *)
Lemma interp_paths_refuted :
  let xp := [f64_ofZ 0; f64_ofZ 3] in let fp := [f64_ofZ 0; f64_ofZ 10] in
  let x := [f64_ofZ 1] in let o := [f64_ofZ 0] in
  let run sx := f64_outs 1 (interp_loop f64_arith 1 2 (mem_of 0 8 x) 0 sx (mem_of 0 8 xp) 0 0 8 (mem_of 0 8 fp) 0 0 8 (mem_of 0 8 o) 0 8) in
  run 0 <> None /\ run 8 <> None /\ run 0 <> run 8.
Proof. vm_compute. split; [discriminate|]. split; discriminate. Qed.

(** a nan sample with a single node reads xp[1] *)
Lemma interp_nan_one_node_refuted :
  exists xp fp x : f64, is_nan x = true /\
    interp_loop f64_arith 1 1 (mem_of 0 8 [x]) 0 8 (mem_of 0 8 [xp]) 0 8 8 (mem_of 0 8 [fp]) 0 8 8 (mem_of 0 8 [fp]) 0 8 = None.
Proof. exists (f64_ofZ 1), (f64_ofZ 2), B754_nan. split; [reflexivity|]. vm_compute. reflexivity. Qed.

(** with no nodes, the general loop gives nan, the fast path reads xp[0] *)
Lemma interp_empty_refuted :
  exists x o : f64,
    f64_outs 1 (interp_loop f64_arith 1 0 (mem_of 0 8 [x]) 0 8 (mem_of 0 8 []) 0 0 8 (mem_of 0 8 []) 0 0 8 (mem_of 0 8 [o]) 0 8)
      = Some [Some S754_nan] /\
    interp_loop f64_arith 1 0 (mem_of 0 8 [x]) 0 0 (mem_of 0 8 []) 0 0 8 (mem_of 0 8 []) 0 0 8 (mem_of 0 8 [o]) 0 8 = None.
Proof. exists (f64_ofZ 1), (f64_ofZ 2). split; vm_compute; reflexivity. Qed.
