(** * M_Select: model of the selection and order gufuncs
    (first, argfirst, all_same, ordered, minmax family, searchsorted,
    percentileofscore).

    Conventions.  [mx] is the memory of the array operand, [px] its data pointer,
    [sx] its core stride in bytes.  Scalar operands ([*p_target] ...) are passed
    by value.  A core with scalar outputs returns the values it stores into them.
    [cmp] is the C comparison of the element type. *)

From Coq Require Import ZArith List Bool.
From Verif Require Import CSem Num.
Import ListNotations.
Open Scope Z_scope.

(** Python's comparison codes, [Py_LT .. Py_GE] = 0..5:
    src/first/first_gufunc.h:13-20, src/ordered/ordered_gufunc.h:15-22. *)
Definition Py_LT : Z := 0.
Definition Py_LE : Z := 1.
Definition Py_EQ : Z := 2.
Definition Py_NE : Z := 3.
Definition Py_GT : Z := 4.
Definition Py_GE : Z := 5.

Inductive cop := LT | LE | EQ | NE | GT | GE.

Section Select.
  Context {T : Type} (cmp : T -> T -> option comparison).
  Local Notation lt := (ltb cmp).
  Local Notation le := (leb cmp).
  Local Notation gt := (gtb cmp).
  Local Notation ge := (geb cmp).
  Local Notation eq := (eqb cmp).
  Local Notation ne := (neb cmp).

  (** src/first/first_gufunc.h:22-45  [cmp<T, OP>(a, b)] *)
  Definition cmp_op (op : cop) (a b : T) : bool :=
    match op with
    | LT => lt a b
    | LE => le a b
    | EQ => eq a b
    | NE => ne a b
    | GT => gt a b
    | GE => ge a b
    end.

  (** src/first/first_gufunc.h:51-69  [first<T, OP>] *)
  Definition first_t (OP : cop) (n : Z) (mx : mem T) (px sx : Z) (target otherwise : T) : M T :=
    r <- for_loop 0 n
           (fun k result =>
              value <- get mx px sx k ;;
              ret (if cmp_op OP value target then Brk value else @Next T T result))
           otherwise ;;
    ret (match r with inl result => result | inr result => result end).

  (** src/first/first_gufunc.h:76-112  [first_core_calc] *)
  Definition first_core_calc (n : Z) (mx : mem T) (px sx : Z) (op : Z) (target otherwise : T) : M T :=
    if op =? Py_LT then first_t LT n mx px sx target otherwise
    else if op =? Py_LE then first_t LE n mx px sx target otherwise
    else if op =? Py_EQ then first_t EQ n mx px sx target otherwise
    else if op =? Py_NE then first_t NE n mx px sx target otherwise
    else if op =? Py_GT then first_t GT n mx px sx target otherwise
    else if op =? Py_GE then first_t GE n mx px sx target otherwise
    else ret otherwise.

  (** src/first/first_gufunc.h:183-200  [argfirst<T, OP>] *)
  Definition argfirst_t (OP : cop) (n : Z) (mx : mem T) (px sx : Z) (target : T) : M Z :=
    r <- for_loop 0 n
           (fun k result =>
              value <- get mx px sx k ;;
              ret (if cmp_op OP value target then Brk k else @Next Z Z result))
           (-1) ;;
    ret (match r with inl result => result | inr result => result end).

  (** src/first/first_gufunc.h:207-242  [argfirst_core_calc] *)
  Definition argfirst_core_calc (n : Z) (mx : mem T) (px sx : Z) (op : Z) (target : T) : M Z :=
    if op =? Py_LT then argfirst_t LT n mx px sx target
    else if op =? Py_LE then argfirst_t LE n mx px sx target
    else if op =? Py_EQ then argfirst_t EQ n mx px sx target
    else if op =? Py_NE then argfirst_t NE n mx px sx target
    else if op =? Py_GT then argfirst_t GT n mx px sx target
    else if op =? Py_GE then argfirst_t GE n mx px sx target
    else ret (-1).

  (** src/ordered/ordered_gufunc.h:24-90  [check_ordered<T, OP>]: each branch
      compares with the negated operator; [bad OP x1 x2] is that comparison. *)
  Definition ordered_bad (OP : cop) (x1 x2 : T) : bool :=
    match OP with
    | LT => ge x1 x2
    | LE => gt x1 x2
    | EQ => ne x1 x2
    | NE => eq x1 x2
    | GT => le x1 x2
    | GE => lt x1 x2
    end.

  Definition check_ordered (OP : cop) (n : Z) (mx : mem T) (px sx : Z) : M bool :=
    x1 <- load mx px ;;
    r <- for_loop 1 n
           (fun k x1 =>
              x2 <- get mx px sx k ;;
              ret (if ordered_bad OP x1 x2 then Ret false else Next x2))
           x1 ;;
    ret (match r with inl _ => true | inr b => b end).

  (** src/ordered/ordered_gufunc.h:92-122  [ordered_core] *)
  Definition ordered_core (n : Z) (mx : mem T) (px sx : Z) (op : Z) : M bool :=
    if 1 <? n then
      if op =? Py_LT then check_ordered LT n mx px sx
      else if op =? Py_LE then check_ordered LE n mx px sx
      else if op =? Py_EQ then check_ordered EQ n mx px sx
      else if op =? Py_NE then check_ordered NE n mx px sx
      else if op =? Py_GT then check_ordered GT n mx px sx
      else check_ordered GE n mx px sx
    else ret true.

  (** [std::min(a, b)] is [(b < a) ? b : a], [std::max(a, b)] is [(a < b) ? b : a]
      (C++ standard, [alg.min.max]). *)
  Definition std_min (a b : T) : T := if lt b a then b else a.
  Definition std_max (a b : T) : T := if lt a b then b else a.

  (** src/minmax/minmax_gufunc.h:17-36  [minmax_core]; the two outputs
      [out[0]], [out[1]] are returned as a pair. *)
  Definition minmax_core (n : Z) (mx : mem T) (px sx : Z) : M (T * T) :=
    x0 <- load mx px ;;
    for_each 1 n
      (fun k st => let '(xmin, xmax) := st in
         x <- get mx px sx k ;;
         ret (std_min xmin x, std_max xmax x))
      (x0, x0).

  (** src/minmax/minmax_gufunc.h:76-103  [argminmax_core] *)
  Definition argminmax_core (n : Z) (mx : mem T) (px sx : Z) : M (Z * Z) :=
    x0 <- load mx px ;;
    r <- for_each 1 n
           (fun k st => let '(xmin, xmax, imin, imax) := st in
              x <- get mx px sx k ;;
              if lt x xmin then ret (x, xmax, k, imax)
              else if gt x xmax then ret (xmin, x, imin, k)
              else ret (xmin, xmax, imin, imax))
           (x0, x0, 0, 0) ;;
    let '(_, _, imin, imax) := r in ret (imin, imax).

  (** src/minmax/minmax_gufunc.h:240-261  [min_argmin_core] *)
  Definition min_argmin_core (n : Z) (mx : mem T) (px sx : Z) : M (T * Z) :=
    x0 <- load mx px ;;
    for_each 1 n
      (fun k st => let '(xmin, imin) := st in
         x <- get mx px sx k ;;
         if lt x xmin then ret (x, k) else ret (xmin, imin))
      (x0, 0).

  (** src/minmax/minmax_gufunc.h:291-312  [max_argmax_core] *)
  Definition max_argmax_core (n : Z) (mx : mem T) (px sx : Z) : M (T * Z) :=
    x0 <- load mx px ;;
    for_each 1 n
      (fun k st => let '(xmax, imax) := st in
         x <- get mx px sx k ;;
         if gt x xmax then ret (x, k) else ret (xmax, imax))
      (x0, 0).

  (** src/minmax/minmax_gufunc.h:148-167  [argmin_core] *)
  Definition argmin_core (n : Z) (mx : mem T) (px sx : Z) : M Z :=
    x0 <- load mx px ;;
    r <- for_each 1 n
      (fun k st => let '(xmin, imin) := st in
         x <- get mx px sx k ;;
         if lt x xmin then ret (x, k) else ret (xmin, imin))
      (x0, 0) ;;
    ret (snd r).

  (** src/minmax/minmax_gufunc.h:194-213  [argmax_core] *)
  Definition argmax_core (n : Z) (mx : mem T) (px sx : Z) : M Z :=
    x0 <- load mx px ;;
    r <- for_each 1 n
      (fun k st => let '(xmax, imax) := st in
         x <- get mx px sx k ;;
         if gt x xmax then ret (x, k) else ret (xmax, imax))
      (x0, 0) ;;
    ret (snd r).

  (** src/searchsorted/searchsorted_gufunc.c.src:211-226, 228-243 (and the half
      versions 364-400): the two bisection loops.  [goright m v] is [m < v] for
      searchsortedl and [!(v < m)] for searchsortedr.  The [while] loop runs on
      explicit fuel; running out of fuel is [None].  [lo + hi] is unbounded
      here: with npy_intp it cannot overflow for arrays that fit in memory. *)
  Fixpoint bisect (goright : T -> T -> bool) (fuel : nat) (ma : mem T) (pa step : Z)
           (v : T) (lo hi : Z) : M Z :=
    if lo <? hi then
      match fuel with
      | O => None
      | S fuel' =>
          let mid := Z.quot (lo + hi) 2 in
          m <- load ma (pa + mid * step) ;;
          if goright m v then bisect goright fuel' ma pa step v (mid + 1) hi
          else bisect goright fuel' ma pa step v lo mid
      end
    else ret lo.

  Definition goright_l (m v : T) : bool := lt m v.
  Definition goright_r (m v : T) : bool := negb (lt v m).

  (** The fuel [len_a] suffices: see [bisect_defined] in P_Select. *)
  Definition searchsortedl (ma : mem T) (pa : Z) (len_a step : Z) (v : T) : M Z :=
    bisect goright_l (Z.to_nat len_a) ma pa step v 0 len_a.
  Definition searchsortedr (ma : mem T) (pa : Z) (len_a step : Z) (v : T) : M Z :=
    bisect goright_r (Z.to_nat len_a) ma pa step v 0 len_a.

  (** src/percentileofscore/percentileofscore_gufunc.h:21-46  [count];
      the triple is (nless, nequal, ngreater). *)
  Definition count (n : Z) (mx : mem T) (px sx : Z) (score : T) : M (Z * Z * Z) :=
    for_each 0 n
      (fun k st => let '(nless, nequal, ngreater) := st in
         value <- get mx px sx k ;;
         if lt value score then ret (nless + 1, nequal, ngreater)
         else if eq value score then ret (nless, nequal + 1, ngreater)
         else ret (nless, nequal, ngreater + 1))
      (0, 0, 0).

  (** [static_cast<int>(npy_intp)]: keeps the low 32 bits. *)
  Definition to_int32 (z : Z) : Z := (z + 2 ^ 31) mod 2 ^ 32 - 2 ^ 31.

  (** src/percentileofscore/percentileofscore_gufunc.h:52-85
      [percentileofscore_core_calc].  [A] is the arithmetic of the C type
      [double] ([npy_intp] operands are converted to double before the product
      and the division).  [None] inside the option means that no case of the
      [switch] matched, so [*p_out] is left unwritten. *)
  Definition percentileofscore_core_calc {D} (A : arith D)
             (n : Z) (mx : mem T) (px sx : Z) (score : T) (kind : Z) : M (option D) :=
    c <- count n mx px sx score ;;
    let '(nless, nequal, ngreater) := c in
    let scaled (sum factor : Z) : D :=
      a_div A (a_mul A (a_ofZ A sum) (a_ofZ A factor)) (a_ofZ A n) in
    let kind := to_int32 kind in
    if kind =? 0 then (* RANK *)
      let sum := 2 * nless + nequal in
      let sum := if 0 <? nequal then sum + 1 else sum in
      ret (Some (scaled sum 50))
    else if kind =? 1 then (* WEAK *) ret (Some (scaled (nless + nequal) 100))
    else if kind =? 2 then (* STRICT *) ret (Some (scaled nless 100))
    else if kind =? 3 then (* MEAN *) ret (Some (scaled (2 * nless + nequal) 50))
    else ret None.
End Select.

(** src/all_same/all_same_gufunc.h:15-33  [all_same_core].  [ne] is the C++
    [!=] of the element type, which for complex types is not derived from an order. *)
Definition all_same_core {T} (ne : T -> T -> bool) (n : Z) (mx : mem T) (px sx : Z) : M bool :=
  if 1 <? n then
    first <- load mx px ;;
    r <- for_loop 1 n
           (fun k out =>
              x <- get mx px sx k ;;
              ret (if ne x first then Brk false else @Next bool bool out))
           true ;;
    ret (match r with inl out => out | inr out => out end)
  else ret true.

(** [std::complex] inequality, used by the complex instances of all_same. *)
Definition complex_ne {T} (cmp : T -> T -> option comparison) (a b : T * T) : bool :=
  neb cmp (fst a) (fst b) || neb cmp (snd a) (snd b).
