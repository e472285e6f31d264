(** * M_Obj: model of the object-dtype cores

    A Python object is represented by its address (a [Z]).  Python code that
    runs inside a rich comparison is an oracle that may depend on the whole
    history of earlier calls (objects can be stateful), may raise, and is only
    known through its answers.  The world records the calls made so far and
    whether a Python exception has been set.

    Not modelled here: reference counts, and Python code that mutates the array
    itself while it is being scanned; see M_Ref.v. *)
From Coq Require Import ZArith List Bool.
From Verif Require Import CSem M_Select.
Import ListNotations.
Open Scope Z_scope.

Definition obj := Z.
Definition call : Type := obj * obj * Z.     (* left operand, right operand, op code *)

(** Answer to the most recent call (the head of the history): [None] = raised. *)
Definition oracle := list call -> option bool.

Record world := mkW { hist : list call; err : bool }.

(** [PyObject_RichCompareBool(a, b, op)]: result -1 is [None].  CPython answers
    == and != of an object with itself without calling any method (Python/C API
    reference, PyObject_RichCompareBool). *)
Definition rich (O : oracle) (a b : obj) (op : Z) (w : world) : option bool * world :=
  let ask :=
    let h := (a, b, op) :: hist w in
    match O h with
    | Some r => (Some r, mkW h (err w))
    | None => (None, mkW h true)
    end in
  if a =? b then
    if op =? Py_EQ then (Some true, w)
    else if op =? Py_NE then (Some false, w)
    else ask
  else ask.

Section Obj.
  Context (O : oracle).

  (** src/first/first_gufunc.h:143-176  [first_core_calc_object];
      the returned [option obj] is the pointer stored in out, [None] = NULL. *)
  Definition first_core_calc_object (n : Z) (mx : mem obj) (px sx : Z) (op : Z)
             (target otherwise : obj) (w : world) : M (option obj * world) :=
    if (0 <=? op) && (op <=? 5) then
      r <- for_loop 0 n
             (fun k st => let '(result, w) := st in
                x <- get mx px sx k ;;
                match rich O x target op w with
                | (None, w') => ret (@Brk (option obj * world) unit (None, w'))
                | (Some true, w') => ret (Brk (Some x, w'))
                | (Some false, w') => ret (Next (result, w'))
                end)
             (Some otherwise, w) ;;
      ret (match r with inl st => st | inr _ => (Some otherwise, w) end)
    else ret (Some otherwise, w).

  (** src/first/first_gufunc.h:244-275  [argfirst_core_calc_object] *)
  Definition argfirst_core_calc_object (n : Z) (mx : mem obj) (px sx : Z) (op : Z)
             (target : obj) (w : world) : M (Z * world) :=
    if (0 <=? op) && (op <=? 5) then
      r <- for_loop 0 n
             (fun k st => let '(result, w) := st in
                x <- get mx px sx k ;;
                match rich O x target op w with
                | (None, w') => ret (@Brk (Z * world) unit (-2, w'))
                | (Some true, w') => ret (Brk (k, w'))
                | (Some false, w') => ret (Next (result, w'))
                end)
             (-1, w) ;;
      ret (match r with inl st => st | inr _ => (-1, w) end)
    else ret (-1, w).

  (** src/all_same/all_same_gufunc.h:36-57  [all_same_core_object] *)
  Definition all_same_core_object (n : Z) (mx : mem obj) (px sx : Z) (w : world) : M (bool * world) :=
    if 1 <? n then
      first <- load mx px ;;
      r <- for_loop 1 n
             (fun k st => let '(out, w) := st in
                x <- get mx px sx k ;;
                match rich O x first Py_NE w with
                | (None, w') => ret (@Brk (bool * world) unit (out, w'))   (* return *)
                | (Some true, w') => ret (Brk (false, w'))
                | (Some false, w') => ret (Next (out, w'))
                end)
             (true, w) ;;
      ret (match r with inl st => st | inr _ => (true, w) end)
    else ret (true, w).

  (** src/ordered/ordered_gufunc.h:125-148  [ordered_core_object]: note that
      [x1] is never advanced, every element is compared with element 0. *)
  Definition ordered_core_object (n : Z) (mx : mem obj) (px sx : Z) (op : Z) (w : world) : M (bool * world) :=
    if 1 <? n then
      x1 <- load mx px ;;
      r <- for_loop 1 n
             (fun k st => let '(out, w) := st in
                x2 <- get mx px sx k ;;
                match rich O x1 x2 op w with
                | (None, w') => ret (@Brk (bool * world) unit (out, w'))   (* return *)
                | (Some false, w') => ret (Brk (false, w'))
                | (Some true, w') => ret (Next (out, w'))
                end)
             (true, w) ;;
      ret (match r with inl st => st | inr _ => (true, w) end)
    else ret (true, w).

  (** Result of the cores that only write their outputs when no comparison
      raised: [None] = outputs not written. *)

  (** One pass keeping a running extremum, src/minmax/minmax_gufunc.h:263-288
      [min_argmin_object_core] (op = Py_LT) and 314-339
      [max_argmax_object_core] (op = Py_GT); the two differ only in the op. *)
  Definition ext_argext_object (op : Z) (n : Z) (mx : mem obj) (px sx : Z) (w : world)
    : M (option (obj * Z) * world) :=
    x0 <- load mx px ;;
    r <- for_loop 1 n
           (fun k st => let '(xm, im, w) := st in
              x <- get mx px sx k ;;
              match rich O x xm op w with
              | (None, w') => ret (Ret w')
              | (Some true, w') => ret (Next (x, k, w'))
              | (Some false, w') => ret (Next (xm, im, w'))
              end)
           (x0, 0, w) ;;
    ret (match r with
         | inl (xm, im, w') => (Some (xm, im), w')
         | inr w' => (None, w')
         end).

  Definition min_argmin_object_core := ext_argext_object Py_LT.
  Definition max_argmax_object_core := ext_argext_object Py_GT.

  (** src/minmax/minmax_gufunc.h:169-191  [argmin_object_core],
      215-237 [argmax_object_core] *)
  Definition argmin_object_core (n : Z) (mx : mem obj) (px sx : Z) (w : world) : M (option Z * world) :=
    r <- ext_argext_object Py_LT n mx px sx w ;;
    ret (option_map snd (fst r), snd r).
  Definition argmax_object_core (n : Z) (mx : mem obj) (px sx : Z) (w : world) : M (option Z * world) :=
    r <- ext_argext_object Py_GT n mx px sx w ;;
    ret (option_map snd (fst r), snd r).

  (** src/minmax/minmax_gufunc.h:39-73 [minmax_object_core] and 106-142
      [argminmax_object_core]: the same scan, one returns the objects, the
      other the positions. *)
  Definition minmax_scan_object (n : Z) (mx : mem obj) (px sx : Z) (w : world)
    : M (option (obj * obj * Z * Z) * world) :=
    x0 <- load mx px ;;
    r <- for_loop 1 n
           (fun k st => let '(xmin, xmax, imin, imax, w) := st in
              x <- get mx px sx k ;;
              match rich O x xmin Py_LT w with
              | (None, w') => ret (Ret w')
              | (Some true, w') => ret (Next (x, xmax, k, imax, w'))
              | (Some false, w') =>
                  match rich O x xmax Py_GT w' with
                  | (None, w'') => ret (Ret w'')
                  | (Some true, w'') => ret (Next (xmin, x, imin, k, w''))
                  | (Some false, w'') => ret (Next (xmin, xmax, imin, imax, w''))
                  end
              end)
           (x0, x0, 0, 0, w) ;;
    ret (match r with
         | inl (xmin, xmax, imin, imax, w') => (Some (xmin, xmax, imin, imax), w')
         | inr w' => (None, w')
         end).

  Definition minmax_object_core (n : Z) (mx : mem obj) (px sx : Z) (w : world)
    : M (option (obj * obj) * world) :=
    r <- minmax_scan_object n mx px sx w ;;
    ret (option_map (fun q => let '(a, b, _, _) := q in (a, b)) (fst r), snd r).
  Definition argminmax_object_core (n : Z) (mx : mem obj) (px sx : Z) (w : world)
    : M (option (Z * Z) * world) :=
    r <- minmax_scan_object n mx px sx w ;;
    ret (option_map (fun q => let '(_, _, i, j) := q in (i, j)) (fst r), snd r).

  (** src/searchsorted/searchsorted_gufunc.c.src:280-301, 303-324; -1 = error *)
  Fixpoint bisect_object (right : bool) (fuel : nat) (ma : mem obj) (pa step : Z)
           (v : obj) (lo hi : Z) (w : world) : M (Z * world) :=
    if lo <? hi then
      match fuel with
      | Datatypes.O => None
      | S fuel' =>
          let mid := Z.quot (lo + hi) 2 in
          m <- load ma (pa + mid * step) ;;
          if right then
            match rich O v m Py_LT w with
            | (None, w') => ret (-1, w')
            | (Some true, w') => bisect_object right fuel' ma pa step v lo mid w'
            | (Some false, w') => bisect_object right fuel' ma pa step v (mid + 1) hi w'
            end
          else
            match rich O m v Py_LT w with
            | (None, w') => ret (-1, w')
            | (Some true, w') => bisect_object right fuel' ma pa step v (mid + 1) hi w'
            | (Some false, w') => bisect_object right fuel' ma pa step v lo mid w'
            end
      end
    else ret (lo, w).
  Definition searchsortedl_object (ma : mem obj) (pa : Z) (len_a step : Z) (v : obj) :=
    bisect_object false (Z.to_nat len_a) ma pa step v 0 len_a.
  Definition searchsortedr_object (ma : mem obj) (pa : Z) (len_a step : Z) (v : obj) :=
    bisect_object true (Z.to_nat len_a) ma pa step v 0 len_a.

  (** src/peaktopeak/peaktopeak_gufunc.c.src:198-231, one slice.
      [sub a b h] is PyNumber_Subtract ([None] = raised); the history passed to
      it is the comparison history, the subtraction itself is not recorded.
      The result [None] = out not written. *)
  Definition peaktopeak_object (sub : obj -> obj -> list call -> option obj)
             (n : Z) (mx : mem obj) (px sx : Z) (w : world) : M (option obj * world) :=
    r <- minmax_scan_object n mx px sx w ;;
    ret (match r with
         | (Some (xmin, xmax, _, _), w') =>
             match sub xmax xmin (hist w') with
             | Some d => (Some d, w')
             | None => (None, mkW (hist w') true)
             end
         | (None, w') => (None, w')
         end).
End Obj.
