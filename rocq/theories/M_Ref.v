(** * M_Ref: model of the object loops with reference counts

    M_Obj.v and M_Geom.v describe which Python operations the object cores perform and
    which objects they deliver.  Here the same cores are modelled once more with the
    reference counts: every object has a count, an object whose count is not positive has
    been freed, and handing a freed object to the Python C API is undefined behaviour.

    Python code that runs inside a comparison or an arithmetic operation may change the
    heap: it may create and drop references and replace the elements of the input arrays.
    It is given by its answers (a function of the history of calls, as in M_Obj.v) and by
    its effect on the heap.

    Simplifications: all object operands that are read live in one memory [inp]; Python
    code does not touch the output operand while the loop runs; an object whose count
    reaches 0 is not finalised, so its destructor runs no Python code. *)
From Coq Require Import ZArith List Bool.
From Verif Require Import CSem M_Select M_Obj M_Geom.
Import ListNotations.
Open Scope Z_scope.

(** [rc] is CPython's [ob_refcnt].  [ext] is a ghost value: how many of those references
    are held outside the running call and its output operand (variables, containers, the
    input arrays).  [inp] is the memory of the input operands. *)
Record heap := mkH { rc : obj -> Z; ext : obj -> Z; inp : mem obj }.

Record python := mkPy {
  cmp_ans : oracle;                          (* answers of PyObject_RichCompareBool *)
  cmp_eff : list call -> heap -> heap;       (* what the comparison does to the heap *)
  num_ans : aoracle;                         (* PyNumber_Multiply, PyNumber_Subtract *)
  num_eff : list acall -> heap -> heap }.

(** [outp]: the output operand, [None] in a cell is a NULL pointer. *)
Record pst := mkS { hp : heap; outp : mem (option obj); cw : world; aw : aworld }.

Definition alive (s : pst) (o : obj) : bool := 0 <? rc (hp s) o.

Definition with_hp (s : pst) (h : heap) : pst := mkS h (outp s) (cw s) (aw s).
Definition add_rc (h : heap) (o : obj) (d : Z) : heap :=
  mkH (fun q => if q =? o then rc h q + d else rc h q) (ext h) (inp h).

(** Py_INCREF / Py_DECREF of the C API *)
Definition incref (o : obj) (s : pst) : M pst :=
  if alive s o then ret (with_hp s (add_rc (hp s) o 1)) else ub.
Definition decref (o : obj) (s : pst) : M pst :=
  if alive s o then ret (with_hp s (add_rc (hp s) o (-1))) else ub.
(** Py_XINCREF: NULL is allowed *)
Definition xincref (o : option obj) (s : pst) : M pst :=
  match o with Some o => incref o s | None => ret s end.

(** a plain assignment to an element of the output operand *)
Definition put (a : Z) (v : option obj) (s : pst) : M pst :=
  m <- store (outp s) a v ;; ret (mkS (hp s) m (cw s) (aw s)).

Section Ref.
  Context (P : python).

  (** PyObject_RichCompareBool: see [M_Obj.rich] for the identity shortcut, in which no
      Python code runs. *)
  Definition rich_ref (a b : obj) (op : Z) (s : pst) : M (option bool * pst) :=
    if alive s a && alive s b then
      let '(r, w') := rich (cmp_ans P) a b op (cw s) in
      let h' := if (a =? b) && ((op =? Py_EQ) || (op =? Py_NE)) then hp s
                else cmp_eff P (hist w') (hp s) in
      ret (r, mkS h' (outp s) w' (aw s))
    else ub.

  (** PyNumber_Multiply / PyNumber_Subtract; a result is a new reference (the effect
      includes its creation). *)
  Definition num_ref (op : aop) (a b : obj) (s : pst) : M (option obj * pst) :=
    if alive s a && alive s b then
      let '(r, w') := pynum (num_ans P) op a b (aw s) in
      ret (r, mkS (num_eff P (ahist w') (hp s)) (outp s) (cw s) w')
    else ub.

  (** src/first/first_gufunc.h:143-176  [first_core_calc_object] *)
  Definition first_ref (n px sx op ptarget potherwise po : Z) (s : pst) : M pst :=
    otherwise <- load (inp (hp s)) potherwise ;;
    st <- (if (0 <=? op) && (op <=? 5) then
             target <- load (inp (hp s)) ptarget ;;
             r <- for_loop 0 n
                    (fun k st => let '(result, s) := st in
                       x <- get (inp (hp s)) px sx k ;;
                       c <- rich_ref x target op s ;;
                       match c with
                       | (None, s) => ret (@Brk (option obj * pst) unit (None, s))
                       | (Some true, s) => ret (Brk (Some x, s))
                       | (Some false, s) => ret (Next (result, s))
                       end)
                    (Some otherwise, s) ;;
             ret (match r with inl st => st | inr _ => (Some otherwise, s) end)
           else ret (Some otherwise, s)) ;;
    s <- xincref (fst st) (snd st) ;;
    put po (fst st) s.

  (** src/minmax/minmax_gufunc.h:263-288 [min_argmin_object_core] (op = Py_LT) and 314-339
      [max_argmax_object_core] (op = Py_GT).  The returned index is what is stored in
      p_out2, [None] = not written. *)
  Definition ext_argext_ref (op n px sx po : Z) (s : pst) : M (option Z * pst) :=
    x0 <- load (inp (hp s)) px ;;
    r <- for_loop 1 n
           (fun k st => let '(xm, im, s) := st in
              x <- get (inp (hp s)) px sx k ;;
              c <- rich_ref x xm op s ;;
              match c with
              | (None, s) => ret (Ret s)
              | (Some true, s) => ret (Next (x, k, s))
              | (Some false, s) => ret (Next (xm, im, s))
              end)
           (x0, 0, s) ;;
    match r with
    | inl (xm, im, s) =>
        s <- incref xm s ;;
        s <- put po (Some xm) s ;;
        ret (Some im, s)
    | inr s => ret (None, s)
    end.

  Definition min_argmin_ref := ext_argext_ref Py_LT.
  Definition max_argmax_ref := ext_argext_ref Py_GT.

  (** the scan shared by src/minmax/minmax_gufunc.h:47-67 and
      src/peaktopeak/peaktopeak_gufunc.c.src:199-220: one step for element k *)
  Definition scan_step_ref (px sx k : Z) (st : obj * obj * pst) : M (ctl (obj * obj * pst) pst) :=
    let '(xmin, xmax, s) := st in
    x <- get (inp (hp s)) px sx k ;;
    c <- rich_ref x xmin Py_LT s ;;
    match c with
    | (None, s) => ret (Ret s)
    | (Some true, s) => ret (Next (x, xmax, s))
    | (Some false, s) =>
        c <- rich_ref x xmax Py_GT s ;;
        match c with
        | (None, s) => ret (Ret s)
        | (Some true, s) => ret (Next (xmin, x, s))
        | (Some false, s) => ret (Next (xmin, xmax, s))
        end
    end.
  Definition scan_ref (n px sx : Z) (s : pst) : M (obj * obj * pst + pst) :=
    x0 <- load (inp (hp s)) px ;;
    for_loop 1 n (scan_step_ref px sx) (x0, x0, s).

  (** src/minmax/minmax_gufunc.h:39-73  [minmax_object_core] *)
  Definition minmax_ref (n px sx po so : Z) (s : pst) : M pst :=
    r <- scan_ref n px sx s ;;
    match r with
    | inl (xmin, xmax, s) =>
        s <- incref xmin s ;;
        s <- incref xmax s ;;
        s <- put po (Some xmin) s ;;
        put (po + 1 * so) (Some xmax) s
    | inr s => ret s
    end.

  (** src/peaktopeak/peaktopeak_gufunc.c.src:198-230, the body of the outer loop for one
      slice; [inr] = return from the loop function. *)
  Definition peaktopeak_slice_ref (n px sx po : Z) (s : pst) : M (pst + pst) :=
    r <- scan_ref n px sx s ;;
    match r with
    | inl (xmin, xmax, s) =>
        s <- incref xmin s ;;
        s <- incref xmax s ;;
        d <- num_ref OSub xmax xmin s ;;
        let '(diff, s) := d in
        s <- decref xmin s ;;
        s <- decref xmax s ;;
        match diff with
        | None => ret (inr s)
        | Some _ => s <- put po diff s ;; ret (inl s)
        end
    | inr s => ret (inr s)
    end.

  (** src/peaktopeak/peaktopeak_gufunc.c.src:183-231  [peaktopeak_object_loop]; for an
      empty core dimension the ValueError is set and nothing is done. *)
  Definition peaktopeak_loop_ref (N n p step core_step po out_step : Z) (s : pst) : M pst :=
    if n =? 0 then ret (mkS (hp s) (outp s) (mkW (hist (cw s)) true) (aw s))
    else
      r <- for_loop 0 N
             (fun i s =>
                c <- peaktopeak_slice_ref n (p + i * step) core_step (po + i * out_step) s ;;
                match c with
                | inl s => ret (Next s)
                | inr s => ret (Ret s)
                end) s ;;
      ret (match r with inl s => s | inr s => s end).

  (** src/cross/cross_gufunc.h:50-67  [det2]: a new reference, or NULL *)
  Definition det2_ref (a b c d : obj) (s : pst) : M (option obj * pst) :=
    r0 <- num_ref OMul a d s ;;
    match r0 with
    | (None, s) => ret (None, s)
    | (Some p0, s) =>
        r1 <- num_ref OMul b c s ;;
        match r1 with
        | (None, s) => s <- decref p0 s ;; ret (None, s)
        | (Some p1, s) =>
            r <- num_ref OSub p0 p1 s ;;
            let '(diff, s) := r in
            s <- decref p0 s ;;
            s <- decref p1 s ;;
            ret (diff, s)
        end
    end.

  (** src/cross/cross_gufunc.h:74-112  [cross3_core_calc_object] *)
  Definition cross3_ref (pu su pv sv po so : Z) (s : pst) : M pst :=
    let m := inp (hp s) in
    u0 <- get m pu su 0 ;; u1 <- get m pu su 1 ;; u2 <- get m pu su 2 ;;
    v0 <- get m pv sv 0 ;; v1 <- get m pv sv 1 ;; v2 <- get m pv sv 2 ;;
    r0 <- det2_ref u1 u2 v1 v2 s ;;
    match r0 with
    | (None, s) => ret s
    | (Some out0, s) =>
        r1 <- det2_ref u2 u0 v2 v0 s ;;
        match r1 with
        | (None, s) => decref out0 s
        | (Some out1, s) =>
            r2 <- det2_ref u0 u1 v0 v1 s ;;
            match r2 with
            | (None, s) => s <- decref out0 s ;; decref out1 s
            | (Some out2, s) =>
                s <- put (po + 0 * so) (Some out0) s ;;
                s <- put (po + 1 * so) (Some out1) s ;;
                put (po + 2 * so) (Some out2) s
            end
        end
    end.

  (** src/cross/cross_gufunc.h:141-160  [cross2_core_calc_object] *)
  Definition cross2_ref (pu su pv sv po : Z) (s : pst) : M pst :=
    let m := inp (hp s) in
    u0 <- get m pu su 0 ;; u1 <- get m pu su 1 ;;
    v0 <- get m pv sv 0 ;; v1 <- get m pv sv 1 ;;
    r <- det2_ref u0 u1 v0 v1 s ;;
    match r with
    | (None, s) => ret s
    | (Some out, s) => put po (Some out) s
    end.
End Ref.

(** The loop function generated by tools/cxxgen/gufuncgen.py:274-363 for the other object
    gufuncs calls the core once per slice (M_Gen.v models the generated code, C03_generated_calls
    shows that it makes exactly these calls); the core has no return
    value, so the loop goes on after an exception. *)
Definition slices (N : Z) (core : Z -> pst -> M pst) (s : pst) : M pst := for_each 0 N core s.
