(** * M_Wrap: the Python wrappers of ufunclab/_wrapped.py
    (bincount, convert_to_base, nextn_greater, nextn_less, one_hot)

    The wrappers are Python code that inspects shapes, allocates the output and
    calls a gufunc.  The model therefore contains three layers:
    - the NumPy operations they rely on ([np_*], below): these are NumPy's
      documented semantics and not code of the repository;
    - the wrappers themselves, one definition per Python function;
    - the gufunc cores, which are the models of M_Int and M_Elem run on a
      compact copy of the 1-d slices (P_GenInst and the C_ files show that the
      layout does not matter).

    Simplifications.  An n-dimensional array is a shape and a function from
    multi-indices to elements; only indices inside the shape are meaningful.
    Axes are Python integers.  dtype conversion (casting of operands and output)
    is not modelled.  An undefined C operation in one slice is recorded in the
    elements of that slice ([None]). *)

From Coq Require Import ZArith List Bool Lia.
From Flocq Require Import BinarySingleNaN.
From Verif Require Import CSem Num M_Int M_Elem.
Import ListNotations.
Open Scope Z_scope.

(** Python exceptions are values. *)
Inductive exc := AxisError | ValueError.
Inductive res (A : Type) := Ok (a : A) | Raise (e : exc).
Arguments Ok {A}. Arguments Raise {A}.
Definition rbind {A B} (x : res A) (f : A -> res B) : res B :=
  match x with Ok a => f a | Raise e => Raise e end.
Notation "x <~ e ;; f" := (rbind e (fun x => f))
  (at level 61, e at next level, right associativity) : m_scope.
Definition guard (b : bool) (e : exc) : res unit := if b then Raise e else Ok tt.

(** ** NumPy *)

Definition shape := list Z.
Record ndarray (T : Type) := mkA { shp : shape; elt : list Z -> T }.
Arguments mkA {T}. Arguments shp {T}. Arguments elt {T}.
Definition ndim {T} (a : ndarray T) : Z := Z.of_nat (length (shp a)).

(** the dtypes the wrappers distinguish *)
Inductive dtype := DInt (t : ity) | DSingle | DDouble | DLongDouble | DOther.
Definition is_integer_dtype (d : dtype) : bool := match d with DInt _ => true | _ => false end.
Definition is_fdg_dtype (d : dtype) : bool :=
  match d with DSingle | DDouble | DLongDouble => true | _ => false end.

(** a Python argument: [operator.index] accepts it and gives an integer, or raises TypeError *)
Inductive pyarg := PInt (z : Z) | PBad.
Definition operator_index (a : pyarg) : option Z := match a with PInt z => Some z | PBad => None end.

(** Python tuple slicing [s[:k]], [s[k:]] for a non-negative [k] *)
Definition upto_ (k : Z) (s : shape) : shape := firstn (Z.to_nat k) s.
Definition from_ (k : Z) (s : shape) : shape := skipn (Z.to_nat k) s.

Fixpoint shape_eqb (a b : shape) : bool :=
  match a, b with
  | [], [] => true
  | x :: a', y :: b' => (x =? y) && shape_eqb a' b'
  | _, _ => false
  end.

(** numpy.broadcast_shapes of two shapes (compared from the last dimension) *)
Fixpoint bc_rev (a b : shape) : option shape :=
  match a, b with
  | [], _ => Some b
  | _, [] => Some a
  | x :: a', y :: b' =>
      match bc_rev a' b' with
      | None => None
      | Some c =>
          if x =? y then Some (x :: c)
          else if x =? 1 then Some (y :: c)
          else if y =? 1 then Some (x :: c)
          else None
      end
  end.
Definition np_broadcast_shapes (a b : shape) : res shape :=
  match bc_rev (rev a) (rev b) with Some c => Ok (rev c) | None => Raise ValueError end.

(** The element of an operand of shape [s] that index [i] of the broadcast shape designates *)
Definition bc_index (s : shape) (i : list Z) : list Z :=
  map (fun p => if fst p =? 1 then 0 else snd p) (combine s (skipn (length i - length s) i)).

(** numpy.empty, numpy.zeros: a negative dimension is a ValueError.
    [junk] is what np.empty leaves in the array. *)
Definition np_alloc {T} (s : shape) (junk : list Z -> T) : res (ndarray T) :=
  _ <~ guard (existsb (fun d => d <? 0) s) ValueError ;; Ok (mkA s junk).

(** The [axis]/[axes] argument of a gufunc call, for an operand with one core dimension *)
Definition np_axis (nd axis : Z) : res Z :=
  if (axis <? - nd) || (axis >=? nd) then Raise AxisError
  else Ok (if axis <? 0 then axis + nd else axis).

Definition del_axis (k : Z) (s : list Z) : list Z := upto_ k s ++ from_ (k + 1) s.
Definition at_axis (k : Z) (s : list Z) : Z := nth (Z.to_nat k) s 0.
Definition put_axis (k v : Z) (s : list Z) : list Z := upto_ k s ++ v :: from_ k s.

Definition range (n : Z) : list Z := map Z.of_nat (seq 0 (Z.to_nat n)).

(** the 1-d slice of [a] along axis [k] at loop index [i] *)
Definition slice {T} (a : ndarray T) (k : Z) (i : list Z) : list T :=
  map (fun j => elt a (put_axis k j i)) (range (at_axis k (shp a))).

(** A gufunc call with one output that has one core dimension.  [loop] is the
    broadcast shape of the inputs' loop dimensions, [read i] the input elements
    (scalars or slices) that belong to loop index [i]; the output's loop shape must
    equal [loop].  Element [I] of the result is element [I[axis]] of the output
    slice computed by the core for the remaining indices. *)
Definition np_gufunc {A T} (core : A -> list T -> M (list T)) (loop : shape) (read : list Z -> A)
           (out : ndarray T) (axis : Z) : res (ndarray (M T)) :=
  ax <~ np_axis (ndim out) axis ;;
  _ <~ guard (negb (shape_eqb (del_axis ax (shp out)) loop)) ValueError ;;
  Ok (mkA (shp out) (fun I =>
        bind (core (read (del_axis ax I)) (slice out ax (del_axis ax I)))
             (fun l => nth_error l (Z.to_nat (at_axis ax I))))).

(** reader of a scalar operand, and of an operand with a core dimension at [ax] *)
Definition read0 {T} (a : ndarray T) (i : list Z) : T := elt a (bc_index (shp a) i).
Definition read1 {T} (a : ndarray T) (ax : Z) (i : list Z) : list T :=
  slice a ax (bc_index (del_axis ax (shp a)) i).

(** ** Running a C core on a compact copy of the output slice *)
Fixpoint mapM {A B} (f : A -> M B) (l : list A) : M (list B) :=
  match l with
  | [] => ret []
  | x :: l' => y <- f x ;; r <- mapM f l' ;; ret (y :: r)
  end.
Definition run_core {T} (core : mem T -> Z -> Z -> M (mem T)) (old : list T) : M (list T) :=
  mo <- core (mem_of 0 8 old) 0 8 ;;
  mapM (fun j => mo (j * 8)) (range (Z.of_nat (length old))).

Definition len {T} (l : list T) : Z := Z.of_nat (length l).
Definition k_bincount (x : list Z) : list Z -> M (list Z) :=
  fun old => run_core (bincount_core_calc 8 8 (len x) (len old) (mem_of 0 8 x) 0 8) old.
Definition k_bincountw {W} (add : W -> W -> W) (xw : list Z * list W) : list W -> M (list W) :=
  fun old => run_core (bincountw_core_calc add (len (fst xw)) (len old) (mem_of 0 8 (fst xw)) 0 8
                         (mem_of 0 8 (snd xw)) 0 8) old.
Definition k_convert (t : ity) (kb : Z * Z) : list Z -> M (list Z) :=
  fun old => run_core (convert_to_base_core_calc t (len old) (fst kb) (snd kb)) old.
Definition k_one_hot (k : Z) : list Z -> M (list Z) :=
  fun old => run_core (one_hot_core_calc (len old) k) old.

(** ** The wrappers *)

(** ufunclab/_wrapped.py:18-24  [_normalize_axis] *)
Definition normalize_axis (nd axis : Z) : res Z :=
  _ <~ guard ((axis <? - nd) || (axis >=? nd)) AxisError ;;
  Ok (if axis <? 0 then axis + nd else axis).

(** ufunclab/_wrapped.py:27-30  [_shape_remove_axis] *)
Definition shape_remove_axis (s : shape) (axis : Z) : res shape :=
  a <~ normalize_axis (len s) axis ;; Ok (upto_ a s ++ from_ (a + 1) s).

(** ufunclab/_wrapped.py:33-36  [_shape_insert_axis] *)
Definition shape_insert_axis (s : shape) (axis n : Z) : res shape :=
  a <~ normalize_axis (len s + 1) axis ;; Ok (upto_ a s ++ [n] ++ from_ a s).

(** ufunclab/_wrapped.py:180-186, 195-200, 268-273, 303-308, 338-343, 369-374: [out] is checked against the expected shape or allocated. *)
Definition get_out {T} (out : option (ndarray T)) (s : shape) (init : list Z -> T) : res (ndarray T) :=
  match out with
  | Some o => _ <~ guard (negb (shape_eqb (shp o) s)) ValueError ;; Ok o
  | None => np_alloc s init
  end.

(** all elements of an array in index order; [np.max] looks at these *)
Fixpoint indices (s : shape) : list (list Z) :=
  match s with
  | [] => [[]]
  | n :: s' => flat_map (fun j => map (cons j) (indices s')) (range n)
  end.
Definition elements {T} (a : ndarray T) : list T := map (elt a) (indices (shp a)).

(** ufunclab/_wrapped.py:163-171: the value of [m].  [m = None] gives
    [max(np.max(x) + 1, 0)], computed in the dtype of x (see C14). *)
Definition bincount_m (t : ity) (x : ndarray Z) (m : option pyarg) : res Z :=
  match m with
  | None => match bincount_default_m t (elements x) with Some m => Ok m | None => Raise ValueError end
  | Some a =>
      match operator_index a with
      | None => Raise ValueError
      | Some m => _ <~ guard (m <? 0) ValueError ;; Ok m
      end
  end.

(** ufunclab/_wrapped.py:47-202  [bincount] without weights (160-171, 189-202) *)
Definition bincount (dx : dtype) (x : ndarray Z) (m : option pyarg) (out : option (ndarray Z)) (axis : Z)
  : res (ndarray (M Z)) :=
  match dx with
  | DInt t =>
      m <~ bincount_m t x m ;;
      a <~ normalize_axis (ndim x) axis ;;
      let out_shape := upto_ a (shp x) ++ [m] ++ from_ (a + 1) (shp x) in
      out <~ get_out out out_shape (fun _ => 0) ;;
      (* return _bincount(x, out=out, axes=[axis, axis]) *)
      ax <~ np_axis (ndim x) axis ;;
      np_gufunc k_bincount (del_axis ax (shp x)) (read1 x ax) out axis
  | _ => Raise ValueError
  end.

(** ufunclab/_wrapped.py:47-202  [bincount] with weights (160-188) *)
Definition bincount_weights {W} (add : W -> W -> W) (zero : W) (dx : dtype) (x : ndarray Z) (m : option pyarg)
           (weights : ndarray W) (out : option (ndarray W)) (axis : Z) : res (ndarray (M W)) :=
  match dx with
  | DInt t =>
      m <~ bincount_m t x m ;;
      x_bc_shape <~ shape_remove_axis (shp x) axis ;;
      w_bc_shape <~ shape_remove_axis (shp weights) axis ;;
      bc_shape <~ np_broadcast_shapes x_bc_shape w_bc_shape ;;
      out_shape <~ shape_insert_axis bc_shape axis m ;;
      out <~ get_out out out_shape (fun _ => zero) ;;
      (* return _bincountw(x, weights, out=out, axes=[axis, axis, axis]) : signature (n),(n)->(m) *)
      ax <~ np_axis (ndim x) axis ;;
      aw <~ np_axis (ndim weights) axis ;;
      _ <~ guard (negb (at_axis ax (shp x) =? at_axis aw (shp weights))) ValueError ;;
      loop <~ np_broadcast_shapes (del_axis ax (shp x)) (del_axis aw (shp weights)) ;;
      np_gufunc (k_bincountw add) loop (fun i => (read1 x ax i, read1 weights aw i)) out axis
  | _ => Raise ValueError
  end.

(** the axis handling repeated in convert_to_base, nextn_greater, nextn_less, one_hot:
    ufunclab/_wrapped.py:261-267, 296-302, 331-337, 362-368.  [s] is the loop shape. *)
Definition new_axis_shape (s : shape) (n axis : Z) : res shape :=
  let adjusted_axis := if axis <? 0 then axis + (1 + len s) else axis in
  _ <~ guard ((adjusted_axis <? 0) || (adjusted_axis >? 1 + len s)) AxisError ;;
  Ok (upto_ adjusted_axis s ++ [n] ++ from_ adjusted_axis s).

Definition index_or_error (a : pyarg) : res Z :=
  match operator_index a with Some z => Ok z | None => Raise ValueError end.

(** ufunclab/_wrapped.py:212-274  [convert_to_base]; [t] is the loop's integer type *)
Definition convert_to_base (t : ity) (k base : ndarray Z) (ndigits : pyarg) (out : option (ndarray Z)) (axis : Z)
           (junk : list Z -> Z) : res (ndarray (M Z)) :=
  ndigits <~ index_or_error ndigits ;;
  param_bcast_shape <~ np_broadcast_shapes (shp k) (shp base) ;;
  out_shape <~ new_axis_shape param_bcast_shape ndigits axis ;;
  out <~ get_out out out_shape junk ;;
  (* return _convert_to_base(k, base, out=out, axis=axis) : signature (),()->(n) *)
  loop <~ np_broadcast_shapes (shp k) (shp base) ;;
  np_gufunc (k_convert t) loop (fun i => (read0 k i, read0 base i)) out axis.

(** ufunclab/_wrapped.py:350-375  [one_hot] *)
Definition one_hot (dk : dtype) (k : ndarray Z) (n : pyarg) (out : option (ndarray Z)) (axis : Z)
           (junk : list Z -> Z) : res (ndarray (M Z)) :=
  _ <~ guard (negb (is_integer_dtype dk)) ValueError ;;
  n <~ index_or_error n ;;
  out_shape <~ new_axis_shape (shp k) n axis ;;
  out <~ get_out out out_shape junk ;;
  (* return _one_hot(k, out=out, axis=axis) : signature ()->(n) *)
  np_gufunc k_one_hot (shp k) (read0 k) out axis.

Section Nextn.
  Context (prec emax : Z) {Hp : FLX.Prec_gt_0 prec} {He : Prec_lt_emax prec emax}.
  Let F := binary_float prec emax.

  Definition k_nextn_greater (x : F) : list F -> M (list F) :=
    fun old => run_core (nextn_greater_core_calc prec emax Hp He x (len old)) old.
  Definition k_nextn_less (x : F) : list F -> M (list F) :=
    fun old => run_core (nextn_less_core_calc prec emax Hp He x (len old)) old.

  Definition nextn_wrapper (core : F -> list F -> M (list F)) (dx : dtype) (x : ndarray F) (n : pyarg)
             (out : option (ndarray F)) (axis : Z) (junk : list Z -> F) : res (ndarray (M F)) :=
    _ <~ guard (negb (is_fdg_dtype dx)) ValueError ;;
    n <~ index_or_error n ;;
    out_shape <~ new_axis_shape (shp x) n axis ;;
    out <~ get_out out out_shape junk ;;
    np_gufunc core (shp x) (read0 x) out axis.

  (** ufunclab/_wrapped.py:280-309  [nextn_greater] *)
  Definition nextn_greater := nextn_wrapper k_nextn_greater.
  (** ufunclab/_wrapped.py:315-344  [nextn_less] *)
  Definition nextn_less := nextn_wrapper k_nextn_less.
End Nextn.
