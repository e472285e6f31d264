(** Specifications for the integer gufuncs. *)
From Coq Require Import ZArith List Bool.
Import ListNotations.
Open Scope Z_scope.

(** Range of the C integer type with the given signedness and width. *)
Definition fits (sgn : bool) (w z : Z) : Prop :=
  if sgn then - 2 ^ (w - 1) <= z < 2 ^ (w - 1) else 0 <= z < 2 ^ w.

(** The weights of the positions of [x] that hold the value [i], in order. *)
Fixpoint weights_of {W} (i : Z) (x : list Z) (w : list W) : list W :=
  match x, w with
  | k :: x', v :: w' => if k =? i then v :: weights_of i x' w' else weights_of i x' w'
  | _, _ => []
  end.

(** Value of a little-endian digit list. *)
Fixpoint digits_value (base : Z) (d : list Z) : Z :=
  match d with
  | [] => 0
  | a :: d' => a + base * digits_value base d'
  end.

(** [m] is the largest (smallest) element. *)
Definition is_max (l : list Z) (m : Z) : Prop := In m l /\ forall x, In x l -> x <= m.
Definition is_min (l : list Z) (m : Z) : Prop := In m l /\ forall x, In x l -> m <= x.

(** Bit fields of an IEEE 754 interchange format with [mw] fraction bits and
    [ew] exponent bits: exponent, quiet bit (top fraction bit), other fraction bits. *)
Definition exponent_field (mw ew v : Z) : Z := (v / 2 ^ mw) mod 2 ^ ew.
Definition quiet_bit (mw v : Z) : Z := (v / 2 ^ (mw - 1)) mod 2.
Definition payload_field (mw v : Z) : Z := v mod 2 ^ (mw - 1).
