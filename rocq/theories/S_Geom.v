(** * S_Geom: specifications for cross products and triangle areas *)
From Coq Require Import ZArith Reals List Bool.
From Verif Require Import CSem Num M_Obj M_Geom.
Import ListNotations.
Open Scope R_scope.

(** Euclidean vectors as lists of equal length *)
Definition vzip (f : R -> R -> R) (u v : list R) : list R := map (fun p => f (fst p) (snd p)) (combine u v).
Definition vsub : list R -> list R -> list R := vzip Rminus.
Definition vadd : list R -> list R -> list R := vzip Rplus.
Definition vscale (a : R) (u : list R) : list R := map (Rmult a) u.
Definition sumR (l : list R) : R := fold_right Rplus 0 l.
Definition dot (u v : list R) : R := sumR (vzip Rmult u v).

(** Distance of two points *)
Definition side (p q : list R) : R := sqrt (dot (vsub q p) (vsub q p)).

(** Area of the triangle with vertices p, q, r: half the root of the Gram determinant
    of two edge vectors. *)
Definition gram_area (p q r : list R) : R :=
  let u := vsub q p in let v := vsub r p in
  sqrt (dot u u * dot v v - dot u v * dot u v) / 2.

(** The three points lie on one line: the edge vectors are linearly dependent. *)
Definition collinear (p q r : list R) : Prop :=
  exists s t, (s <> 0 \/ t <> 0) /\
    Forall (fun x => x = 0) (vzip (fun x y => s * x + t * y) (vsub q p) (vsub r p)).

(** textbook cross product in Z^3 and R^3 *)
Definition cross3Z (u v : Z * Z * Z) : Z * Z * Z :=
  let '(u0, u1, u2) := u in let '(v0, v1, v2) := v in
  (u1 * v2 - u2 * v1, u2 * v0 - u0 * v2, u0 * v1 - u1 * v0)%Z.
Definition cross3R (u v : R * R * R) : R * R * R :=
  let '(u0, u1, u2) := u in let '(v0, v1, v2) := v in
  (u1 * v2 - u2 * v1, u2 * v0 - u0 * v2, u0 * v1 - u1 * v0).
Definition dot3R (u v : R * R * R) : R :=
  let '(u0, u1, u2) := u in let '(v0, v1, v2) := v in u0 * v0 + u1 * v1 + u2 * v2.
Definition add3R (u v : R * R * R) : R * R * R :=
  let '(u0, u1, u2) := u in let '(v0, v1, v2) := v in (u0 + v0, u1 + v1, u2 + v2).
Definition scale3R (a : R) (u : R * R * R) : R * R * R :=
  let '(u0, u1, u2) := u in (a * u0, a * u1, a * u2).
Definition list3 {T} (u : T * T * T) : list T := let '(a, b, c) := u in [a; b; c].
Definition map3 {S T} (f : S -> T) (u : S * S * S) : T * T * T :=
  let '(a, b, c) := u in (f a, f b, f c).

(** Python indexing: i in [-m, m) denotes row i mod m. *)
Definition py_index (m i : Z) : option Z :=
  if ((- m <=? i) && (i <? m))%Z then Some (i mod m)%Z else None.

(** The operators of the objects implement operations [mul] and [sub] of some structure X
    (not assumed commutative): every answer denotes the product / difference of what the
    operands denote. *)
Definition faithful {X} (O : aoracle) (val : obj -> X) (mul sub : X -> X -> X) : Prop :=
  forall op a b h r, O ((op, a, b) :: h) = Some r ->
    val r = match op with OMul => mul (val a) (val b) | OSub => sub (val a) (val b) end.
Definition cross3X {X} (mul sub : X -> X -> X) (u v : X * X * X) : X * X * X :=
  let '(u0, u1, u2) := u in let '(v0, v1, v2) := v in
  (sub (mul u1 v2) (mul u2 v1), sub (mul u2 v0) (mul u0 v2), sub (mul u0 v1) (mul u1 v0)).
(** No operator raises. *)
Definition never_raises (O : aoracle) : Prop := forall h, O h <> None.
