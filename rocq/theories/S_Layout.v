(** * S_Layout: results do not depend on where NumPy put the elements *)
From Coq Require Import ZArith List Bool.
From Verif Require Import CSem.
Open Scope Z_scope.

(** two strided arrays of [n] elements hold the same elements (cells that do not belong to the arrays
    may differ in any way) *)
Definition same_elements {T} (n : Z) (m : mem T) (p s : Z) (m' : mem T) (p' s' : Z) : Prop :=
  forall k, 0 <= k < n -> m (p + k * s) = m' (p' + k * s').

(** [f], a function of one array operand of [n] elements, depends on its elements only *)
Definition layout_free {T R} (n : Z) (f : mem T -> Z -> Z -> R) : Prop :=
  forall m p s m' p' s', same_elements n m p s m' p' s' -> f m p s = f m' p' s'.

(** the memory that has the [n] elements at (p, s) and nothing else: any other access is undefined *)
Definition only {T} (n : Z) (m : mem T) (p s : Z) : mem T :=
  fun a => if existsb (fun k => a =? p + Z.of_nat k * s) (List.seq 0 (Z.to_nat n)) then m a else None.

(** a memory without any cell *)
Definition no_memory {T} : mem T := fun _ => None.

(** two runs are both undefined, or both defined with related results *)
Definition both {A B} (R : A -> B -> Prop) (x : M A) (y : M B) : Prop :=
  match x, y with Some a, Some b => R a b | None, None => True | _, _ => False end.

(** memory [r] differs from [m] in the [n] elements at (p, s) at most *)
Definition frame {T} (n : Z) (m : mem T) (p s : Z) (r : mem T) : Prop :=
  forall a, outside p s (Z.to_nat n) a -> r a = m a.

(** the runs [x] and [y], whose output arrays are the [n] elements at (p, s) of [m] and at (p', s') of [m'],
    are both undefined, or both put the same elements into their output arrays and change nothing else *)
Definition same_output {T} (n : Z) (x : M (mem T)) (m : mem T) (p s : Z) (y : M (mem T)) (m' : mem T) (p' s' : Z) : Prop :=
  both (fun r r' => same_elements n r p s r' p' s' /\ frame n m p s r /\ frame n m' p' s' r') x y.
