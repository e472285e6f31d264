(** * S_Wrap: what a user of the Python wrappers expects of shapes, axes and broadcasting

    Independent of the wrappers' code: shapes and indices are described by where
    they are cut (s1 ++ n :: s2), broadcasting by recursion from the last dimension. *)
From Coq Require Import ZArith List.
From Verif Require Import CSem M_Int S_Int M_Wrap.
Import ListNotations.
Open Scope Z_scope.

(** the types nextn_greater and nextn_less accept *)
Definition floating_dtype (d : dtype) : Prop := d = DSingle \/ d = DDouble \/ d = DLongDouble.

(** [axis] designates position [p] of an array with [nd] dimensions (negative axes count
    from the end); no position is designated by an axis out of bounds. *)
Definition axis_pos (nd axis : Z) (p : nat) : Prop :=
  (0 <= axis < nd /\ axis = Z.of_nat p) \/ (- nd <= axis < 0 /\ axis + nd = Z.of_nat p).
Definition axis_out_of_bounds (nd axis : Z) : Prop := axis < - nd \/ nd <= axis.

(** [i] is an index of an array of shape [s] *)
Definition in_shape (i s : list Z) : Prop := Forall2 (fun x n => 0 <= x < n) i s.
Definition valid_shape (s : list Z) : Prop := Forall (fun n => 0 <= n) s.

(** NumPy's broadcasting rule *)
Inductive bc_dim : Z -> Z -> Z -> Prop :=
| bc_same x : bc_dim x x x
| bc_one_l y : bc_dim 1 y y
| bc_one_r x : bc_dim x 1 x.
Inductive broadcast : list Z -> list Z -> list Z -> Prop :=
| bc_nil_l b : broadcast [] b b
| bc_nil_r a : broadcast a [] a
| bc_snoc a b c x y z : broadcast a b c -> bc_dim x y z -> broadcast (a ++ [x]) (b ++ [y]) (c ++ [z]).

(** index [i] of the broadcast array designates element [i'] of an operand of shape [s] *)
Inductive designates : list Z -> list Z -> list Z -> Prop :=
| des_nil i : designates [] i []
| des_snoc s i i' n x : designates s i i' ->
    designates (s ++ [n]) (i ++ [x]) (i' ++ [if n =? 1 then 0 else x]).

(** the output argument is absent or has the shape [s] *)
Definition out_ok {T} (out : option (ndarray T)) (s : list Z) : Prop :=
  match out with None => True | Some o => shp o = s end.

(** which number of bins a call of bincount uses: [m] when given; by default one more than
    the largest element (0 when all are negative), provided that number is of x's dtype *)
Inductive effective_m (t : ity) (x : ndarray Z) : option pyarg -> Z -> Prop :=
| em_given m : 0 <= m -> effective_m t x (Some (PInt m)) m
| em_default mx : 1 <= iwid t -> (exists i, in_shape i (shp x) /\ elt x i = mx) ->
    (forall i, in_shape i (shp x) -> elt x i <= mx) ->
    fits (isgn t) (iwid t) mx -> fits (isgn t) (iwid t) (mx + 1) -> effective_m t x None (Z.max (mx + 1) 0).
