(** Property theorems C04, C05, C07, C08, C09, C11, C12.

    All statements range over every element type given by its C comparison
    [cmp]; where order laws are needed they are the premise [cmp_laws cmp],
    which holds for the integer types ([cmp_laws_int]) and for every IEEE binary
    format ([cmp_laws_float]).  [view mx px sx l] says that the operand with
    data pointer [px] and byte stride [sx] holds the logical array [l]. *)
From Coq Require Import ZArith List Bool Reals.
From Flocq Require Import Core BinarySingleNaN.
From Verif Require Import CSem CSemP Num NumP M_Select S_Select P_Select.
Import ListNotations.
Open Scope Z_scope.

Theorem cmp_laws_int : cmp_laws Zcmp.
Proof. exact Zcmp_laws. Qed.
Print Assumptions cmp_laws_int.

Theorem cmp_laws_float : forall prec emax, cmp_laws (@Bcompare prec emax).
Proof. exact Bcompare_laws. Qed.
Print Assumptions cmp_laws_float.

(** ** C04 *)
Theorem C04_first_correct :
  forall {T} (cmp : T -> T -> option comparison) mx px sx l op target otherwise,
    view mx px sx l ->
    exists r, first_core_calc cmp (Z.of_nat (length l)) mx px sx op target otherwise = Some r /\
      ((exists k, first_at (fun x => op_holds cmp op x target) l k r) \/
       ((forall x, In x l -> ~ op_holds cmp op x target) /\ r = otherwise)).
Proof. exact @first_correct. Qed.
Print Assumptions C04_first_correct.

(** an invalid op code never matches, so the previous theorem gives [otherwise] *)
Theorem C04_first_invalid_op :
  forall {T} (cmp : T -> T -> option comparison) op x target,
    ~ (0 <= op <= 5) -> ~ op_holds cmp op x target.
Proof. exact @first_invalid_op. Qed.
Print Assumptions C04_first_invalid_op.

Theorem C04_first_nan_only_ne :
  forall {T} (cmp : T -> T -> option comparison), cmp_laws cmp ->
    forall op x target, is_nan cmp x \/ is_nan cmp target ->
    (op_holds cmp op x target <-> op = 3).
Proof. exact @nan_matches_only_ne. Qed.
Print Assumptions C04_first_nan_only_ne.

(** the search stops at the first match: later elements are not read *)
Theorem C04_first_reads_prefix_only :
  forall {T} (cmp : T -> T -> option comparison) mx px sx pre x n op target otherwise,
    view mx px sx (pre ++ [x]) ->
    (forall y, In y pre -> ~ op_holds cmp op y target) ->
    op_holds cmp op x target ->
    Z.of_nat (length pre) < n ->
    first_core_calc cmp n mx px sx op target otherwise = Some x.
Proof. exact @first_prefix. Qed.
Print Assumptions C04_first_reads_prefix_only.

Example C04_ex_reversed :
  (* the array [5; 9; 2; 9] stored backwards: base 24, stride -8 *)
  first_core_calc Zcmp 4 (mem_of 0 8 [9; 2; 9; 5]) 24 (-8) Py_GT 5 (-1) = Some 9 /\
  view (mem_of 0 8 [9; 2; 9; 5]) 24 (-8) [5; 9; 2; 9].
Proof.
  split; [vm_compute; reflexivity|].
  intros k Hk. do 4 (destruct k as [|k]; [vm_compute; reflexivity|]). simpl in Hk. Lia.lia.
Qed.

Example C04_ex_nan :
  option_map B2SF (first_core_calc f64_cmp 3 (mem_of 0 8 [B754_nan; f64_ofZ 7; f64_ofZ 4]) 0 8 Py_LT (f64_ofZ 7) B754_nan)
  = Some (B2SF (f64_ofZ 4)) /\
  option_map B2SF (first_core_calc f64_cmp 3 (mem_of 0 8 [B754_nan; f64_ofZ 7; f64_ofZ 4]) 0 8 Py_NE (f64_ofZ 7) (f64_ofZ 0))
  = Some (@B2SF f64_prec f64_emax B754_nan).
Proof. split; vm_compute; reflexivity. Qed.

Example C04_ex_unread_tail :
  (* n = 100 but only three elements exist; the match is at index 2 *)
  first_core_calc Zcmp 100 (mem_of 0 8 [1; 2; 3]) 0 8 Py_GE 3 0 = Some 3.
Proof. vm_compute. reflexivity. Qed.

(** ** C05 *)
Theorem C05_argfirst_correct :
  forall {T} (cmp : T -> T -> option comparison) mx px sx l op target,
    view mx px sx l ->
    exists r, argfirst_core_calc cmp (Z.of_nat (length l)) mx px sx op target = Some r /\
      ((exists k x, first_at (fun x => op_holds cmp op x target) l k x /\ r = Z.of_nat k) \/
       ((forall x, In x l -> ~ op_holds cmp op x target) /\ r = -1)).
Proof. exact @argfirst_correct. Qed.
Print Assumptions C05_argfirst_correct.

Theorem C05_first_agrees_argfirst :
  forall {T} (cmp : T -> T -> option comparison) mx px sx l op target otherwise,
    view mx px sx l ->
    exists i r,
      argfirst_core_calc cmp (Z.of_nat (length l)) mx px sx op target = Some i /\
      first_core_calc cmp (Z.of_nat (length l)) mx px sx op target otherwise = Some r /\
      ((0 <= i < Z.of_nat (length l) /\ nth_error l (Z.to_nat i) = Some r) \/
       (i = -1 /\ r = otherwise)).
Proof. exact @first_argfirst. Qed.
Print Assumptions C05_first_agrees_argfirst.

Example C05_ex :
  argfirst_core_calc Zcmp 5 (mem_of 0 8 [3; 1; 4; 1; 5]) 0 8 Py_EQ 1 = Some 1 /\
  argfirst_core_calc Zcmp 5 (mem_of 0 8 [3; 1; 4; 1; 5]) 0 8 Py_GT 9 = Some (-1) /\
  argfirst_core_calc Zcmp 5 (mem_of 0 8 [3; 1; 4; 1; 5]) 0 8 6 1 = Some (-1) /\
  argfirst_core_calc Zcmp 3 (mem_of 0 8 [3; 1; 4; 1; 5]) 0 16 Py_GE 4 = Some 1.
Proof. repeat split; vm_compute; reflexivity. Qed.

(** ** C07 *)
Theorem C07_all_same_correct :
  forall {T} (cmp : T -> T -> option comparison) mx px sx l,
    view mx px sx l ->
    exists b, all_same_core (neb cmp) (Z.of_nat (length l)) mx px sx = Some b /\
      (b = true <-> (length l <= 1)%nat \/
         exists x0, nth_error l 0 = Some x0 /\
           forall j y, (0 < j)%nat -> nth_error l j = Some y -> cmp y x0 = Some Eq).
Proof. exact @all_same_correct. Qed.
Print Assumptions C07_all_same_correct.

Theorem C07_all_same_pairwise :
  forall {T} (cmp : T -> T -> option comparison), cmp_laws cmp ->
    forall mx px sx l, view mx px sx l -> nan_free cmp l ->
    exists b, all_same_core (neb cmp) (Z.of_nat (length l)) mx px sx = Some b /\
      (b = true <-> forall x y, In x l -> In y l -> cmp x y = Some Eq).
Proof. exact @all_same_pairwise. Qed.
Print Assumptions C07_all_same_pairwise.

Theorem C07_all_same_nan :
  forall {T} (cmp : T -> T -> option comparison), cmp_laws cmp ->
    forall mx px sx l, view mx px sx l -> (2 <= length l)%nat ->
    (exists x, In x l /\ is_nan cmp x) ->
    all_same_core (neb cmp) (Z.of_nat (length l)) mx px sx = Some false.
Proof. exact @all_same_nan. Qed.
Print Assumptions C07_all_same_nan.

Theorem C07_all_same_complex :
  forall {T} (cmp : T -> T -> option comparison) mx px sx (l : list (T * T)),
    view mx px sx l ->
    exists b, all_same_core (complex_ne cmp) (Z.of_nat (length l)) mx px sx = Some b /\
      (b = true <-> (length l <= 1)%nat \/
         exists x0, nth_error l 0 = Some x0 /\
           forall j y, (0 < j)%nat -> nth_error l j = Some y ->
            cmp (fst y) (fst x0) = Some Eq /\ cmp (snd y) (snd x0) = Some Eq).
Proof. exact @all_same_complex. Qed.
Print Assumptions C07_all_same_complex.

Example C07_ex :
  all_same_core (neb Zcmp) 3 (mem_of 0 8 [7; 1; 7; 2; 7]) 0 16 = Some true /\
  all_same_core (neb Zcmp) 5 (mem_of 0 8 [7; 1; 7; 2; 7]) 0 8 = Some false /\
  (* zero stride: a broadcast scalar *)
  all_same_core (neb Zcmp) 50 (mem_of 0 8 [3]) 0 0 = Some true /\
  all_same_core (neb f64_cmp) 2 (mem_of 0 8 [B754_zero true; B754_zero false]) 0 8 = Some true /\
  all_same_core (neb f64_cmp) 2 (mem_of 0 8 [@B754_nan f64_prec f64_emax; B754_nan]) 0 8 = Some false /\
  all_same_core (neb f64_cmp) 1 (mem_of 0 8 [@B754_nan f64_prec f64_emax]) 0 8 = Some true.
Proof. repeat split; vm_compute; reflexivity. Qed.

(** ** C08 *)
Theorem C08_ordered_correct :
  forall {T} (cmp : T -> T -> option comparison), cmp_laws cmp ->
    forall mx px sx l op,
    view mx px sx l -> nan_free cmp l -> 0 <= op <= 5 ->
    exists b, ordered_core cmp (Z.of_nat (length l)) mx px sx op = Some b /\
      (b = true <-> forall i x y, nth_error l i = Some x -> nth_error l (S i) = Some y ->
                                  op_holds cmp op x y).
Proof. exact @ordered_correct. Qed.
Print Assumptions C08_ordered_correct.

Theorem C08_ordered_all_pairs :
  forall {T} (cmp : T -> T -> option comparison), cmp_laws cmp ->
    forall mx px sx l op,
    view mx px sx l -> nan_free cmp l -> 0 <= op <= 5 -> op <> 3 ->
    exists b, ordered_core cmp (Z.of_nat (length l)) mx px sx op = Some b /\
      (b = true <-> forall i j x y, (i < j)%nat -> nth_error l i = Some x -> nth_error l j = Some y ->
                                  op_holds cmp op x y).
Proof. exact @ordered_all_pairs. Qed.
Print Assumptions C08_ordered_all_pairs.

(** With NaN in the array only op = EQ answers false; for every other op the
    code compares with the negated operator, so pairs involving NaN pass. *)
Theorem C08_ordered_eq_nan :
  forall {T} (cmp : T -> T -> option comparison), cmp_laws cmp ->
    forall mx px sx l, view mx px sx l -> (2 <= length l)%nat ->
    (exists x, In x l /\ is_nan cmp x) ->
    ordered_core cmp (Z.of_nat (length l)) mx px sx 2 = Some false.
Proof. exact @ordered_eq_nan. Qed.
Print Assumptions C08_ordered_eq_nan.

Theorem C08_ordered_nan_skips :
  forall {T} (cmp : T -> T -> option comparison), cmp_laws cmp ->
    forall mx px sx l op,
    view mx px sx l -> 0 <= op <= 5 -> op <> 2 ->
    exists b, ordered_core cmp (Z.of_nat (length l)) mx px sx op = Some b /\
      (b = true <-> forall i x y, nth_error l i = Some x -> nth_error l (S i) = Some y ->
                     ~ is_nan cmp x -> ~ is_nan cmp y -> op_holds cmp op x y).
Proof. exact @ordered_nan_skips. Qed.
Print Assumptions C08_ordered_nan_skips.

(** Refuted: "with NaN in x the answer is not true".  ordered([1, nan, 0], LT)
    is true for doubles. *)
Theorem C08_ordered_nan_refuted :
  exists (l : list f64) mx,
    view mx 0 8 l /\ (exists x, In x l /\ is_nan f64_cmp x) /\
    ordered_core f64_cmp (Z.of_nat (length l)) mx 0 8 Py_LT = Some true /\
    (exists x y, nth_error l 0 = Some x /\ nth_error l 2 = Some y /\ f64_cmp x y = Some Gt).
Proof. exact @ordered_nan_refuted. Qed.
Print Assumptions C08_ordered_nan_refuted.

(** Refuted: "an op code outside 0..5 is rejected".  It behaves like GE. *)
Theorem C08_ordered_invalid_op_refuted :
  forall {T} (cmp : T -> T -> option comparison) n mx px sx op,
    ~ (0 <= op <= 5) -> ordered_core cmp n mx px sx op = ordered_core cmp n mx px sx 5.
Proof. exact @ordered_invalid_op. Qed.
Print Assumptions C08_ordered_invalid_op_refuted.

Example C08_ex :
  ordered_core Zcmp 4 (mem_of 0 8 [1; 3; 3; 8]) 0 8 Py_LE = Some true /\
  ordered_core Zcmp 4 (mem_of 0 8 [1; 3; 3; 8]) 0 8 Py_LT = Some false /\
  ordered_core Zcmp 4 (mem_of 0 8 [1; 3; 3; 8]) 24 (-8) Py_GE = Some true /\
  ordered_core Zcmp 1 (mem_of 0 8 [1]) 0 8 Py_LT = Some true /\
  ordered_core Zcmp 0 (fun _ => None) 0 8 Py_LT = Some true /\
  nan_free Zcmp [1; 3; 3; 8].
Proof.
  repeat split; try (vm_compute; reflexivity). intros x _ H. unfold is_nan, Zcmp in H. discriminate.
Qed.

(** ** C09 *)
Theorem C09_min_argmin_correct :
  forall {T} (cmp : T -> T -> option comparison), cmp_laws cmp ->
    forall mx px sx x0 l, view mx px sx (x0 :: l) -> ~ is_nan cmp x0 ->
    exists x k, min_argmin_core cmp (Z.of_nat (length (x0 :: l))) mx px sx = Some (x, Z.of_nat k) /\
      first_min cmp (x0 :: l) k x.
Proof. exact @min_argmin_correct. Qed.
Print Assumptions C09_min_argmin_correct.

Theorem C09_max_argmax_correct :
  forall {T} (cmp : T -> T -> option comparison), cmp_laws cmp ->
    forall mx px sx x0 l, view mx px sx (x0 :: l) -> ~ is_nan cmp x0 ->
    exists x k, max_argmax_core cmp (Z.of_nat (length (x0 :: l))) mx px sx = Some (x, Z.of_nat k) /\
      first_max cmp (x0 :: l) k x.
Proof. exact @max_argmax_correct. Qed.
Print Assumptions C09_max_argmax_correct.

(** all six functions return the same extrema and positions (NaN or not) *)
Theorem C09_minmax_family_agrees :
  forall {T} (cmp : T -> T -> option comparison), cmp_laws cmp ->
    forall mx px sx x0 l, view mx px sx (x0 :: l) ->
    exists xmin imin xmax imax,
      min_argmin_core cmp (Z.of_nat (length (x0 :: l))) mx px sx = Some (xmin, imin) /\
      max_argmax_core cmp (Z.of_nat (length (x0 :: l))) mx px sx = Some (xmax, imax) /\
      minmax_core cmp (Z.of_nat (length (x0 :: l))) mx px sx = Some (xmin, xmax) /\
      argminmax_core cmp (Z.of_nat (length (x0 :: l))) mx px sx = Some (imin, imax) /\
      argmin_core cmp (Z.of_nat (length (x0 :: l))) mx px sx = Some imin /\
      argmax_core cmp (Z.of_nat (length (x0 :: l))) mx px sx = Some imax.
Proof. exact @minmax_agrees. Qed.
Print Assumptions C09_minmax_family_agrees.

Theorem C09_min_nan_first :
  forall {T} (cmp : T -> T -> option comparison), cmp_laws cmp ->
    forall mx px sx x0 l, view mx px sx (x0 :: l) -> is_nan cmp x0 ->
    min_argmin_core cmp (Z.of_nat (length (x0 :: l))) mx px sx = Some (x0, 0).
Proof. exact @min_argmin_nan0. Qed.
Print Assumptions C09_min_nan_first.

Theorem C09_max_nan_first :
  forall {T} (cmp : T -> T -> option comparison), cmp_laws cmp ->
    forall mx px sx x0 l, view mx px sx (x0 :: l) -> is_nan cmp x0 ->
    max_argmax_core cmp (Z.of_nat (length (x0 :: l))) mx px sx = Some (x0, 0).
Proof. exact @max_argmax_nan0. Qed.
Print Assumptions C09_max_nan_first.

Example C09_ex :
  minmax_core Zcmp 5 (mem_of 0 8 [3; 1; 5; 1; 5]) 0 8 = Some (1, 5) /\
  argminmax_core Zcmp 5 (mem_of 0 8 [3; 1; 5; 1; 5]) 0 8 = Some (1, 2) /\
  argminmax_core Zcmp 5 (mem_of 0 8 [3; 1; 5; 1; 5]) 32 (-8) = Some (1, 0) /\
  argmin_core f64_cmp 3 (mem_of 0 8 [f64_ofZ 3; B754_nan; f64_ofZ 1]) 0 8 = Some 2 /\
  argmin_core f64_cmp 3 (mem_of 0 8 [B754_nan; f64_ofZ 3; f64_ofZ 1]) 0 8 = Some 0 /\
  (~ is_nan f64_cmp (f64_ofZ 3)) /\ is_nan f64_cmp B754_nan.
Proof. repeat split; try (vm_compute; reflexivity). vm_compute. discriminate. Qed.

(** ** C11 *)
Theorem C11_searchsortedl_correct :
  forall {T} (cmp : T -> T -> option comparison), cmp_laws cmp ->
    forall ma pa step l v,
    view ma pa step l -> sorted cmp l -> nan_free cmp l ->
    exists r, searchsortedl cmp ma pa (Z.of_nat (length l)) step v = Some r /\
      0 <= r <= Z.of_nat (length l) /\
      occ (fun x => cmp x v = Some Lt) l r /\
      (forall i x, nth_error l i = Some x -> (Z.of_nat i < r <-> cmp x v = Some Lt)).
Proof. exact @searchsortedl_correct. Qed.
Print Assumptions C11_searchsortedl_correct.

Theorem C11_searchsortedr_correct :
  forall {T} (cmp : T -> T -> option comparison), cmp_laws cmp ->
    forall ma pa step l v,
    view ma pa step l -> sorted cmp l -> nan_free cmp l -> ~ is_nan cmp v ->
    exists r, searchsortedr cmp ma pa (Z.of_nat (length l)) step v = Some r /\
      0 <= r <= Z.of_nat (length l) /\
      occ (fun x => le_spec cmp x v) l r /\
      (forall i x, nth_error l i = Some x -> (Z.of_nat i < r <-> le_spec cmp x v)).
Proof. exact @searchsortedr_correct. Qed.
Print Assumptions C11_searchsortedr_correct.

Theorem C11_searchsorted_difference :
  forall {T} (cmp : T -> T -> option comparison), cmp_laws cmp ->
    forall ma pa step l v,
    view ma pa step l -> sorted cmp l -> nan_free cmp l -> ~ is_nan cmp v ->
    exists rl rr, searchsortedl cmp ma pa (Z.of_nat (length l)) step v = Some rl /\
      searchsortedr cmp ma pa (Z.of_nat (length l)) step v = Some rr /\
      0 <= rl <= rr /\ rr <= Z.of_nat (length l) /\
      occ (fun x => cmp x v = Some Eq) l (rr - rl).
Proof. exact @searchsorted_diff. Qed.
Print Assumptions C11_searchsorted_difference.

Theorem C11_searchsorted_insert_sorted :
  forall {T} (cmp : T -> T -> option comparison), cmp_laws cmp ->
    forall ma pa step l v rl rr,
    view ma pa step l -> sorted cmp l -> nan_free cmp l -> ~ is_nan cmp v ->
    searchsortedl cmp ma pa (Z.of_nat (length l)) step v = Some rl ->
    searchsortedr cmp ma pa (Z.of_nat (length l)) step v = Some rr ->
    forall r, rl <= r <= rr ->
    sorted cmp (firstn (Z.to_nat r) l ++ v :: skipn (Z.to_nat r) l).
Proof. exact @searchsorted_insert. Qed.
Print Assumptions C11_searchsorted_insert_sorted.

(** terminates and stays inside a[0..n-1] whatever the array contains *)
Theorem C11_searchsorted_safe :
  forall {T} (cmp : T -> T -> option comparison) ma pa step l v, view ma pa step l ->
    (exists r, searchsortedl cmp ma pa (Z.of_nat (length l)) step v = Some r /\ 0 <= r <= Z.of_nat (length l)) /\
    (exists r, searchsortedr cmp ma pa (Z.of_nat (length l)) step v = Some r /\ 0 <= r <= Z.of_nat (length l)).
Proof. exact @searchsorted_lr_safe. Qed.
Print Assumptions C11_searchsorted_safe.

Example C11_ex :
  sorted Zcmp [1; 3; 3; 3; 8] /\ nan_free Zcmp [1; 3; 3; 3; 8] /\
  searchsortedl Zcmp (mem_of 0 8 [1; 3; 3; 3; 8]) 0 5 8 3 = Some 1 /\
  searchsortedr Zcmp (mem_of 0 8 [1; 3; 3; 3; 8]) 0 5 8 3 = Some 4 /\
  searchsortedl Zcmp (mem_of 0 8 [9; 2; 5; 1]) 0 4 8 4 = Some 2 (* unsorted *).
Proof.
  split; [|split; [intros x _ H; discriminate H|repeat split; vm_compute; reflexivity]].
  intros i j x y Hij Hx Hy.
  do 5 (destruct i as [|i]; [cbn in Hx; injection Hx as <-;
    do 5 (destruct j as [|j]; [first [exfalso; Lia.lia | cbn in Hy; injection Hy as <-; unfold le_spec, Zcmp; cbn; auto]|]);
    cbn in Hy; destruct j; discriminate|]).
  cbn in Hx. destruct i; discriminate.
Qed.

(** ** C12 (exact arithmetic) *)
Theorem C12_percentileofscore_correct :
  forall {T} (cmp : T -> T -> option comparison) mx px sx l v kind,
    view mx px sx l -> l <> [] ->
    exists b e a,
      occ (fun x => cmp x v = Some Lt) l b /\
      occ (fun x => cmp x v = Some Eq) l e /\
      occ (fun x => cmp x v = Some Gt \/ cmp x v = None) l a /\
      b + e + a = Z.of_nat (length l) /\ 0 <= b /\ 0 <= e /\ 0 <= a /\
      percentileofscore_core_calc cmp earith (Z.of_nat (length l)) mx px sx v kind =
      Some (match to_int32 kind with
            | 0 => Some (Fin (100 * ((IZR b + (if 0 <? e then (IZR e + 1) / 2 else 0)) / IZR (b + e + a))))
            | 1 => Some (Fin (100 * ((IZR b + IZR e) / IZR (b + e + a))))
            | 2 => Some (Fin (100 * (IZR b / IZR (b + e + a))))
            | 3 => Some (Fin (100 * ((IZR b + IZR e / 2) / IZR (b + e + a))))
            | _ => None
            end).
Proof. exact @pos_correct. Qed.
Print Assumptions C12_percentileofscore_correct.

(** strict <= mean <= rank <= weak, all within [0, 100] *)
Theorem C12_percentileofscore_kinds_ordered :
  forall {T} (cmp : T -> T -> option comparison) mx px sx l v,
    view mx px sx l -> l <> [] ->
    exists rank weak strict mean,
      (forall kind r, nth_error [rank; weak; strict; mean] kind = Some r ->
         percentileofscore_core_calc cmp earith (Z.of_nat (length l)) mx px sx v (Z.of_nat kind)
         = Some (Some (Fin r))) /\
      (0 <= strict <= mean /\ mean <= rank <= weak /\ weak <= 100)%R.
Proof. exact @pos_kinds_ordered. Qed.
Print Assumptions C12_percentileofscore_kinds_ordered.

Theorem C12_percentileofscore_monotone :
  forall {T} (cmp : T -> T -> option comparison), cmp_laws cmp ->
    forall mx px sx l v w kind,
    view mx px sx l -> l <> [] -> 0 <= kind <= 3 -> le_spec cmp v w ->
    exists rv rw,
      percentileofscore_core_calc cmp earith (Z.of_nat (length l)) mx px sx v kind = Some (Some (Fin rv)) /\
      percentileofscore_core_calc cmp earith (Z.of_nat (length l)) mx px sx w kind = Some (Some (Fin rw)) /\
      (rv <= rw)%R.
Proof. exact @pos_monotone. Qed.
Print Assumptions C12_percentileofscore_monotone.

Example C12_ex :
  (* x = [1; 3; 3; 5], score 3: b = 1, e = 2, a = 1 *)
  count Zcmp 4 (mem_of 0 8 [1; 3; 3; 5]) 0 8 3 = Some (1, 2, 1) /\
  to_int32 3 = 3 /\ to_int32 (2 ^ 32) = 0 /\
  option_map (option_map B2SF) (percentileofscore_core_calc Zcmp f64_arith 4 (mem_of 0 8 [1; 3; 3; 5]) 0 8 3 3) = Some (Some (B2SF (f64_ofZ 50))) /\
  option_map (option_map B2SF) (percentileofscore_core_calc Zcmp f64_arith 4 (mem_of 0 8 [1; 3; 3; 5]) 0 8 3 1) = Some (Some (B2SF (f64_ofZ 75))) /\
  percentileofscore_core_calc Zcmp f64_arith 4 (mem_of 0 8 [1; 3; 3; 5]) 0 8 3 7 = Some None.
Proof. repeat split; vm_compute; reflexivity. Qed.
