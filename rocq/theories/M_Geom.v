(** * M_Geom: model of cross2, cross3, tri_area and tri_area_indexed *)
From Coq Require Import ZArith List Bool.
From Verif Require Import CSem Num M_Int M_Obj M_Stat.
Import ListNotations.
Open Scope Z_scope.

(** ** cross: numeric loops.  [mul] and [sub] are the C operators of T; they are
    partial because signed integer overflow is undefined. *)
Section Cross.
  Context {T : Type} (mul sub : T -> T -> M T).

  (** src/cross/cross_gufunc.h:41-43: the expression a*d - b*c *)
  Definition det2_num (a b c d : T) : M T := x <- mul a d ;; y <- mul b c ;; sub x y.

  (** src/cross/cross_gufunc.h:24-44  [cross3_core_calc] *)
  Definition cross3_core_calc (mu : mem T) (pu su : Z) (mv : mem T) (pv sv : Z)
             (mo : mem T) (po so : Z) : M (mem T) :=
    u0 <- get mu pu su 0 ;; u1 <- get mu pu su 1 ;; u2 <- get mu pu su 2 ;;
    v0 <- get mv pv sv 0 ;; v1 <- get mv pv sv 1 ;; v2 <- get mv pv sv 2 ;;
    r0 <- det2_num u1 u2 v1 v2 ;; mo <- set mo po so 0 r0 ;;
    r1 <- det2_num u2 u0 v2 v0 ;; mo <- set mo po so 1 r1 ;;
    r2 <- det2_num u0 u1 v0 v1 ;; set mo po so 2 r2.

  (** src/cross/cross_gufunc.h:119-134  [cross2_core_calc]; the scalar output is a
      one-element operand. *)
  Definition cross2_core_calc (mu : mem T) (pu su : Z) (mv : mem T) (pv sv : Z)
             (mo : mem T) (po : Z) : M (mem T) :=
    u0 <- get mu pu su 0 ;; u1 <- get mu pu su 1 ;;
    v0 <- get mv pv sv 0 ;; v1 <- get mv pv sv 1 ;;
    r <- det2_num u0 u1 v0 v1 ;; store mo po r.
End Cross.

(** C multiplication and subtraction of a signed type at least as wide as int
    (the typesignatures of cross are 'ii->i' and 'll->l', define_cxx_gufunc_extmod.py:72,92) *)
Definition c_mul (t : ity) (x y : Z) : M Z := if in_range t (x * y) then ret (x * y) else ub.
Definition c_sub (t : ity) (x y : Z) : M Z := if in_range t (x - y) then ret (x - y) else ub.
(** floating point operators never trap *)
Definition f_mul {T} (A : arith T) (x y : T) : M T := ret (a_mul A x y).
Definition f_sub {T} (A : arith T) (x y : T) : M T := ret (a_sub A x y).

(** ** cross: object loops.  The arithmetic methods of Python objects are an oracle that
    may depend on the history; [None] = raised (the error indicator is then set). *)
Inductive aop := OMul | OSub.
Definition acall : Type := aop * obj * obj.
Definition aoracle := list acall -> option obj.
Record aworld := mkAW { ahist : list acall; aerr : bool }.

(** PyNumber_Multiply / PyNumber_Subtract *)
Definition pynum (O : aoracle) (op : aop) (a b : obj) (w : aworld) : option obj * aworld :=
  let h := (op, a, b) :: ahist w in
  match O h with
  | Some r => (Some r, mkAW h (aerr w))
  | None => (None, mkAW h true)
  end.

Section CrossObj.
  Context (O : aoracle).

  (** src/cross/cross_gufunc.h:50-67  [det2]; [None] is NULL.  Reference counts are
      modelled in M_Ref.v. *)
  Definition det2 (a b c d : obj) (w : aworld) : option obj * aworld :=
    match pynum O OMul a d w with
    | (None, w) => (None, w)
    | (Some p0, w) =>
        match pynum O OMul b c w with
        | (None, w) => (None, w)
        | (Some p1, w) => pynum O OSub p0 p1 w
        end
    end.

  (** src/cross/cross_gufunc.h:74-112  [cross3_core_calc_object] *)
  Definition cross3_core_calc_object (mu : mem obj) (pu su : Z) (mv : mem obj) (pv sv : Z)
             (mo : mem obj) (po so : Z) (w : aworld) : M (mem obj * aworld) :=
    u0 <- get mu pu su 0 ;; u1 <- get mu pu su 1 ;; u2 <- get mu pu su 2 ;;
    v0 <- get mv pv sv 0 ;; v1 <- get mv pv sv 1 ;; v2 <- get mv pv sv 2 ;;
    match det2 u1 u2 v1 v2 w with
    | (None, w) => ret (mo, w)
    | (Some out0, w) =>
        match det2 u2 u0 v2 v0 w with
        | (None, w) => ret (mo, w)
        | (Some out1, w) =>
            match det2 u0 u1 v0 v1 w with
            | (None, w) => ret (mo, w)
            | (Some out2, w) =>
                mo <- set mo po so 0 out0 ;;
                mo <- set mo po so 1 out1 ;;
                mo <- set mo po so 2 out2 ;;
                ret (mo, w)
            end
        end
    end.

  (** src/cross/cross_gufunc.h:141-160  [cross2_core_calc_object] *)
  Definition cross2_core_calc_object (mu : mem obj) (pu su : Z) (mv : mem obj) (pv sv : Z)
             (mo : mem obj) (po : Z) (w : aworld) : M (mem obj * aworld) :=
    u0 <- get mu pu su 0 ;; u1 <- get mu pu su 1 ;;
    v0 <- get mv pv sv 0 ;; v1 <- get mv pv sv 1 ;;
    match det2 u0 u1 v0 v1 w with
    | (None, w) => ret (mo, w)
    | (Some out, w) => mo <- store mo po out ;; ret (mo, w)
    end.
End CrossObj.

(** ** tri_area *)
Section Tri.
  Context {T : Type} (A : arith T).
  Local Notation gt := (gtb (a_cmp A)).
  Local Infix "+." := (a_add A) (at level 50, left associativity).
  Local Infix "-." := (a_sub A) (at level 50, left associativity).
  Local Infix "*." := (a_mul A) (at level 40, left associativity).

  (** src/tri_area/tri_area_gufunc.h:16-27  [norm_diff]; the counter is an int. *)
  Definition norm_diff (n : Z) (m : mem T) (p s0 s1 i1 i2 : Z) : M T :=
    r <- int_for_each n
           (fun k sumsq =>
              x1 <- get2d m p s0 s1 i1 k ;;
              x2 <- get2d m p s0 s1 i2 k ;;
              let dx := x2 -. x1 in
              ret (sumsq +. dx *. dx)) (a_ofZ A 0) ;;
    ret (a_sqrt A r).

  (** src/tri_area/tri_area_gufunc.h:47-62: the two exchanges that sort the sides *)
  Definition sort_sides (a b c : T) : T * T * T :=
    let '(a, b) := if gt b a then (b, a) else (a, b) in
    if gt c a then (c, a, b)
    else if gt c b then (a, c, b)
    else (a, b, c).

  (** src/tri_area/tri_area_gufunc.h:72-76: Kahan's form of Heron's formula *)
  Definition heron (a b c : T) : T :=
    let f1 := a +. (b +. c) in
    let f2 := c -. (a -. b) in
    let f3 := c +. (a -. b) in
    let f4 := a +. (b -. c) in
    a_div A (a_sqrt A (f1 *. f2 *. f3 *. f4)) (a_ofZ A 4).

  (** src/tri_area/tri_area_gufunc.h:32-77  [tri_area_common_calc]; the result is the
      value stored in *p_out. *)
  Definition tri_area_common_calc (n : Z) (m : mem T) (p s0 s1 i0 i1 i2 : Z) : M T :=
    a <- norm_diff n m p s0 s1 i0 i1 ;;
    b <- norm_diff n m p s0 s1 i0 i2 ;;
    c <- norm_diff n m p s0 s1 i1 i2 ;;
    let '(a, b, c) := sort_sides a b c in
    ret (heron a b c).

  (** src/tri_area/tri_area_gufunc.h:84-93  [tri_area_core_calc] *)
  Definition tri_area_core_calc (n : Z) (m : mem T) (p s0 s1 : Z) : M T :=
    tri_area_common_calc n m p s0 s1 0 1 2.

  (** src/tri_area/tri_area_gufunc.h:96-107  [get_index] *)
  Definition get_index (mi : mem Z) (pi si index m : Z) : M Z :=
    i <- get mi pi si index ;;
    let i := if i <? 0 then i + m else i in
    ret (if (i <? 0) || (m <=? i) then -1 else i).

  (** src/tri_area/tri_area_gufunc.h:114-136  [tri_area_indexed_core_calc] *)
  Definition tri_area_indexed_core_calc (mrows n : Z) (m : mem T) (p s0 s1 : Z)
             (mi : mem Z) (pi si : Z) : M T :=
    i0 <- get_index mi pi si 0 mrows ;;
    i1 <- get_index mi pi si 1 mrows ;;
    i2 <- get_index mi pi si 2 mrows ;;
    if (i0 =? -1) || (i1 =? -1) || (i2 =? -1) then ret (a_nan A)
    else tri_area_common_calc n m p s0 s1 i0 i1 i2.
End Tri.
