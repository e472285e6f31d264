(** * M_Entry: core functions as the generated loops call them, by position *)
From Coq Require Import ZArith List Bool.
From Verif Require Import CSem Num M_Int M_Signal M_Obj M_Geom M_Gen.
Import ListNotations.
Open Scope Z_scope.

(** src/backlash/backlash_gufunc.h:15-26: the parameters (n, p_x, x_stride, p_deadband,
    p_initial, p_out, out_stride) of [backlash_core].  The scalar operands are dereferenced by
    the core. *)
Definition backlash_entry {T} (A : arith T) (mx md mi : mem T) (args : list cval) (mo : mem T) : M (mem T) :=
  match args with
  | [VInt n; VPtr px; VInt sx; VPtr pd; VPtr pi; VPtr po; VInt so] =>
      d <- load md pd ;; i <- load mi pi ;; backlash_core A n mx px sx d i mo po so
  | _ => ub
  end.

(** src/cross/cross_gufunc.h:26-33: the parameters of [cross3_core_calc] *)
Definition cross3_entry {T} (mul sub : T -> T -> M T) (mu mv : mem T) (args : list cval) (mo : mem T) : M (mem T) :=
  match args with
  | [VPtr pu; VInt su; VPtr pv; VInt sv; VPtr po; VInt so] => cross3_core_calc mul sub mu pu su mv pv sv mo po so
  | _ => ub
  end.

(** src/cross/cross_gufunc.h:142-148: the parameters of [cross2_core_calc_object] *)
Definition cross2_object_entry (O : aoracle) (mu mv : mem obj) (args : list cval) (st : mem obj * aworld) : M (mem obj * aworld) :=
  match args with
  | [VPtr pu; VInt su; VPtr pv; VInt sv; VPtr po] => cross2_core_calc_object O mu pu su mv pv sv (fst st) po (snd st)
  | _ => ub
  end.
