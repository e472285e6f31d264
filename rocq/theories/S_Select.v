(** Specifications used by the theorems about selection and order functions.
    Nothing here refers to the model (M_Select). *)
From Coq Require Import ZArith List Bool Reals.
Import ListNotations.
Open Scope Z_scope.

Section S.
  Context {T : Type} (cmp : T -> T -> option comparison).

  (** What the comparison codes 0..5 (LT LE EQ NE GT GE) mean. *)
  Definition op_holds (op : Z) (a b : T) : Prop :=
    (op = 0 /\ cmp a b = Some Lt) \/
    (op = 1 /\ (cmp a b = Some Lt \/ cmp a b = Some Eq)) \/
    (op = 2 /\ cmp a b = Some Eq) \/
    (op = 3 /\ cmp a b <> Some Eq) \/
    (op = 4 /\ cmp a b = Some Gt) \/
    (op = 5 /\ (cmp a b = Some Gt \/ cmp a b = Some Eq)).

  Definition is_nan (x : T) : Prop := cmp x x = None.
  Definition nan_free (l : list T) : Prop := forall x, In x l -> ~ is_nan x.

  Definition le_spec (a b : T) : Prop := cmp a b = Some Lt \/ cmp a b = Some Eq.

  Definition sorted (l : list T) : Prop :=
    forall i j x y, (i < j)%nat -> nth_error l i = Some x -> nth_error l j = Some y -> le_spec x y.

  (** position [k] holds [x], a non-NaN least element, and nothing before [k]
      is as small; NaN elements do not count. *)
  Definition first_min (l : list T) (k : nat) (x : T) : Prop :=
    nth_error l k = Some x /\ ~ is_nan x /\
    (forall y, In y l -> ~ is_nan y -> le_spec x y) /\
    (forall j y, (j < k)%nat -> nth_error l j = Some y -> ~ is_nan y -> cmp x y = Some Lt).
  Definition first_max (l : list T) (k : nat) (x : T) : Prop :=
    nth_error l k = Some x /\ ~ is_nan x /\
    (forall y, In y l -> ~ is_nan y -> le_spec y x) /\
    (forall j y, (j < k)%nat -> nth_error l j = Some y -> ~ is_nan y -> cmp x y = Some Gt).
End S.

(** [k] is the first position of [l] whose element satisfies [P]. *)
Definition first_at {T} (P : T -> Prop) (l : list T) (k : nat) (x : T) : Prop :=
  nth_error l k = Some x /\ P x /\
  forall j y, (j < k)%nat -> nth_error l j = Some y -> ~ P y.

(** [c] elements of [l] satisfy [P]. *)
Inductive occ {T} (P : T -> Prop) : list T -> Z -> Prop :=
| occ_nil : occ P [] 0
| occ_yes : forall x l c, P x -> occ P l c -> occ P (x :: l) (c + 1)
| occ_no : forall x l c, ~ P x -> occ P l c -> occ P (x :: l) c.
