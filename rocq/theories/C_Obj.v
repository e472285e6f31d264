(** Property theorem C06 (and the object part of C08): object-dtype loops.

    Python comparisons are an arbitrary history-dependent oracle [O]; [err w]
    says that a Python exception is set. *)
From Coq Require Import ZArith List Bool.
From Verif Require Import CSem CSemP Num NumP M_Select S_Select P_Select M_Obj S_Obj P_Obj.
Import ListNotations.
Open Scope Z_scope.

Theorem C06_first_object :
  forall (O : oracle) mx px sx l op target otherwise w,
    view mx px sx l -> 0 <= op <= 5 ->
    exists r w', first_core_calc_object O (Z.of_nat (length l)) mx px sx op target otherwise w = Some (r, w') /\
      ((answers O (fun x => (x, target, op)) false l w w' /\ r = Some otherwise /\ err w' = err w) \/
       (exists pre x, decides O (fun x => (x, target, op)) true (Some true) l w pre x w' /\ r = Some x /\ err w' = err w) \/
       (exists pre x, decides O (fun x => (x, target, op)) true None l w pre x w' /\ r = None /\ err w' = true)).
Proof. exact first_object_correct. Qed.
Print Assumptions C06_first_object.

Theorem C06_first_object_invalid_op :
  forall (O : oracle) mx px sx n op target otherwise w, ~ (0 <= op <= 5) ->
    first_core_calc_object O n mx px sx op target otherwise w = Some (Some otherwise, w).
Proof. exact first_object_invalid. Qed.
Print Assumptions C06_first_object_invalid_op.

Theorem C06_argfirst_object :
  forall (O : oracle) mx px sx l op target w,
    view mx px sx l -> 0 <= op <= 5 ->
    exists r w', argfirst_core_calc_object O (Z.of_nat (length l)) mx px sx op target w = Some (r, w') /\
      ((answers O (fun x => (x, target, op)) false l w w' /\ r = -1 /\ err w' = err w) \/
       (exists pre x, decides O (fun x => (x, target, op)) true (Some true) l w pre x w' /\ r = Z.of_nat (length pre) /\ err w' = err w) \/
       (exists pre x, decides O (fun x => (x, target, op)) true None l w pre x w' /\ r = -2 /\ err w' = true)).
Proof. exact argfirst_object_correct. Qed.
Print Assumptions C06_argfirst_object.

Theorem C06_all_same_object :
  forall (O : oracle) mx px sx x0 l w,
    view mx px sx (x0 :: l) ->
    exists r w', all_same_core_object O (Z.of_nat (length (x0 :: l))) mx px sx w = Some (r, w') /\
      ((answers O (fun x => (x, x0, 3)) false l w w' /\ r = true /\ err w' = err w) \/
       (exists pre x, decides O (fun x => (x, x0, 3)) true (Some true) l w pre x w' /\ r = false /\ err w' = err w) \/
       (exists pre x, decides O (fun x => (x, x0, 3)) true None l w pre x w' /\ r = true /\ err w' = true)).
Proof. exact all_same_object_correct. Qed.
Print Assumptions C06_all_same_object.

(** outputs are written exactly when no comparison raised *)
Theorem C06_minmax_object_error :
  forall (O : oracle) mx px sx x0 l w,
  view mx px sx (x0 :: l) -> err w = false ->
  (exists r w', minmax_object_core O (Z.of_nat (length (x0 :: l))) mx px sx w = Some (r, w') /\ (r = None <-> err w' = true)) /\
  (exists r w', argminmax_object_core O (Z.of_nat (length (x0 :: l))) mx px sx w = Some (r, w') /\ (r = None <-> err w' = true)) /\
  (exists r w', min_argmin_object_core O (Z.of_nat (length (x0 :: l))) mx px sx w = Some (r, w') /\ (r = None <-> err w' = true)) /\
  (exists r w', max_argmax_object_core O (Z.of_nat (length (x0 :: l))) mx px sx w = Some (r, w') /\ (r = None <-> err w' = true)) /\
  (exists r w', argmin_object_core O (Z.of_nat (length (x0 :: l))) mx px sx w = Some (r, w') /\ (r = None <-> err w' = true)) /\
  (exists r w', argmax_object_core O (Z.of_nat (length (x0 :: l))) mx px sx w = Some (r, w') /\ (r = None <-> err w' = true)).
Proof. exact minmax_object_error. Qed.
Print Assumptions C06_minmax_object_error.

Theorem C06_peaktopeak_object_error :
  forall (O : oracle) sub mx px sx x0 l w,
  view mx px sx (x0 :: l) -> err w = false ->
  exists r w', peaktopeak_object O sub (Z.of_nat (length (x0 :: l))) mx px sx w = Some (r, w') /\
    (r = None <-> err w' = true).
Proof. exact peaktopeak_object_error. Qed.
Print Assumptions C06_peaktopeak_object_error.

Theorem C06_searchsorted_object_error :
  forall (O : oracle) ma pa step (l : list obj) v w,
    view ma pa step l -> err w = false ->
    forall right : bool,
    exists r w',
      (if right then searchsortedr_object else searchsortedl_object) O ma pa (Z.of_nat (length l)) step v w = Some (r, w') /\
      ((err w' = false /\ 0 <= r <= Z.of_nat (length l)) \/ (err w' = true /\ r = -1)).
Proof. exact searchsorted_object_error. Qed.
Print Assumptions C06_searchsorted_object_error.

(** ** well-behaved objects give the typed results *)
Theorem C06_first_object_typed :
  forall {T} (cmp : T -> T -> option comparison) (O : oracle) val, models_order O val cmp ->
    forall mx px sx l op tgt oth w, view mx px sx l -> 0 <= op <= 5 ->
    exists r w', first_core_calc_object O (Z.of_nat (length l)) mx px sx op tgt oth w = Some (Some r, w') /\
      err w' = err w /\
      first_core_calc cmp (Z.of_nat (length l)) (vmem val mx) px sx op (val tgt) (val oth) = Some (val r).
Proof. exact @first_object_typed. Qed.
Print Assumptions C06_first_object_typed.

Theorem C06_argfirst_object_typed :
  forall {T} (cmp : T -> T -> option comparison) (O : oracle) val, models_order O val cmp ->
    forall mx px sx l op tgt w, view mx px sx l -> 0 <= op <= 5 ->
    exists r w', argfirst_core_calc_object O (Z.of_nat (length l)) mx px sx op tgt w = Some (r, w') /\
      err w' = err w /\
      argfirst_core_calc cmp (Z.of_nat (length l)) (vmem val mx) px sx op (val tgt) = Some r.
Proof. exact @argfirst_object_typed. Qed.
Print Assumptions C06_argfirst_object_typed.

Theorem C06_all_same_object_typed :
  forall {T} (cmp : T -> T -> option comparison) (O : oracle) val, models_order O val cmp ->
    forall mx px sx l w, view mx px sx l ->
    exists r w', all_same_core_object O (Z.of_nat (length l)) mx px sx w = Some (r, w') /\
      err w' = err w /\
      all_same_core (neb cmp) (Z.of_nat (length l)) (vmem val mx) px sx = Some r.
Proof. exact @all_same_object_typed. Qed.
Print Assumptions C06_all_same_object_typed.

Theorem C06_minmax_object_typed :
  forall {T} (cmp : T -> T -> option comparison) (O : oracle) val,
  cmp_laws cmp -> models_order O val cmp ->
  forall mx px sx x0 l w, view mx px sx (x0 :: l) ->
  let n := Z.of_nat (length (x0 :: l)) in
  exists a b i j w1 w2 w3,
    minmax_object_core O n mx px sx w = Some (Some (a, b), w1) /\
    argminmax_object_core O n mx px sx w = Some (Some (i, j), w1) /\
    (exists a', min_argmin_object_core O n mx px sx w = Some (Some (a', i), w2) /\ val a' = val a) /\
    (exists b', max_argmax_object_core O n mx px sx w = Some (Some (b', j), w3) /\ val b' = val b) /\
    argmin_object_core O n mx px sx w = Some (Some i, w2) /\
    argmax_object_core O n mx px sx w = Some (Some j, w3) /\
    err w1 = err w /\ err w2 = err w /\ err w3 = err w /\
    minmax_core cmp n (vmem val mx) px sx = Some (val a, val b) /\
    argminmax_core cmp n (vmem val mx) px sx = Some (i, j).
Proof. exact @minmax_object_typed_all. Qed.
Print Assumptions C06_minmax_object_typed.

Theorem C06_searchsorted_object_typed :
  forall {T} (cmp : T -> T -> option comparison) (O : oracle) val, models_order O val cmp ->
  forall ma pa step (l : list obj) v w, view ma pa step l ->
  (exists r w', searchsortedl_object O ma pa (Z.of_nat (length l)) step v w = Some (r, w') /\ err w' = err w /\
     searchsortedl cmp (vmem val ma) pa (Z.of_nat (length l)) step (val v) = Some r) /\
  (exists r w', searchsortedr_object O ma pa (Z.of_nat (length l)) step v w = Some (r, w') /\ err w' = err w /\
     searchsortedr cmp (vmem val ma) pa (Z.of_nat (length l)) step (val v) = Some r).
Proof. exact @searchsorted_object_typed. Qed.
Print Assumptions C06_searchsorted_object_typed.

(** Python integers are such objects; first with an object that raises on the
    third comparison; minmax with an early exception. *)
Theorem C06_integers_model_order : models_order zoracle (fun a => a) Zcmp.
Proof. exact zoracle_models. Qed.
Print Assumptions C06_integers_model_order.

Definition raise_third : oracle := fun h =>
  match h with
  | _ :: ([] | [_]) => zoracle h
  | _ => None
  end.
Example C06_ex_first :
  option_map fst (first_core_calc_object zoracle 4 (mem_of 0 8 [3; 7; 9; 2]) 0 8 4 5 (-1) (mkW [] false)) = Some (Some 7).
Proof. vm_compute. reflexivity. Qed.
Example C06_ex_first_raises :
  option_map (fun p => (fst p, err (snd p)))
    (first_core_calc_object raise_third 4 (mem_of 0 8 [3; 4; 9; 2]) 0 8 4 5 (-1) (mkW [] false)) = Some (None, true) /\
  option_map (fun p => (fst p, err (snd p)))
    (argfirst_core_calc_object raise_third 4 (mem_of 0 8 [3; 4; 9; 2]) 0 8 4 5 (mkW [] false)) = Some (-2, true) /\
  (* an earlier match hides the exception *)
  option_map (fun p => (fst p, err (snd p)))
    (first_core_calc_object raise_third 4 (mem_of 0 8 [3; 7; 9; 2]) 0 8 4 5 (-1) (mkW [] false)) = Some (Some 7, false).
Proof. vm_compute. auto. Qed.
Example C06_ex_minmax :
  option_map fst (minmax_object_core zoracle 5 (mem_of 0 8 [3; 7; 9; 2; 9]) 0 8 (mkW [] false)) = Some (Some (2, 9)) /\
  option_map fst (argminmax_object_core zoracle 5 (mem_of 0 8 [3; 7; 9; 2; 9]) 0 8 (mkW [] false)) = Some (Some (3, 2)) /\
  option_map (fun p => (fst p, err (snd p)))
    (minmax_object_core raise_third 5 (mem_of 0 8 [3; 7; 9; 2; 9]) 0 8 (mkW [] false)) = Some (None, true).
Proof. vm_compute. auto. Qed.

(** ** C08, object dtype: every element is compared with the first one, so the
    result is not "consecutive elements are related". *)
Theorem C08_ordered_object_partial :
  forall {T} (cmp : T -> T -> option comparison) (O : oracle) val, models_order O val cmp ->
    forall mx px sx x0 l op w, view mx px sx (x0 :: l) -> 0 <= op <= 5 ->
    exists r w', ordered_core_object O (Z.of_nat (length (x0 :: l))) mx px sx op w = Some (r, w') /\
      err w' = err w /\ (r = true <-> forall x, In x l -> op_holds cmp op (val x0) (val x)).
Proof. exact @ordered_object_typed. Qed.
Print Assumptions C08_ordered_object_partial.

Theorem C08_ordered_object_refuted :
  exists (O : oracle) (mx : mem obj) (w : world),
    models_order O (fun a => a) Zcmp /\ view mx 0 8 [1; 3; 2] /\ err w = false /\
    exists w', ordered_core_object O 3 mx 0 8 0 w = Some (true, w') /\ err w' = false /\
    ~ (forall k a b, nth_error [1; 3; 2] k = Some a -> nth_error [1; 3; 2] (S k) = Some b -> op_holds Zcmp 0 a b).
Proof. exact ordered_object_refuted. Qed.
Print Assumptions C08_ordered_object_refuted.
