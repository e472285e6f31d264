(** Specifications for the object-dtype cores.  [rich] is the Python/C API
    function PyObject_RichCompareBool, i.e. part of the environment. *)
From Coq Require Import ZArith List Bool.
From Verif Require Import CSem M_Obj S_Select.
Import ListNotations.
Open Scope Z_scope.

(** [answers O q b l w w']: asking the comparison [q x] for the elements [x] of
    [l] in order, starting in world [w], gives the answer [b] every time and
    ends in world [w']. *)
Inductive answers (O : oracle) (q : obj -> obj * obj * Z) (b : bool)
  : list obj -> world -> world -> Prop :=
| ans_nil : forall w, answers O q b [] w w
| ans_cons : forall x l w w1 w2,
    rich O (fst (fst (q x))) (snd (fst (q x))) (snd (q x)) w = (Some b, w1) ->
    answers O q b l w1 w2 -> answers O q b (x :: l) w w2.

(** [decides O q b l w pre x w']: the elements of [pre] answer [negb b], the
    next element [x] answers [b] in world [w'] ([None]: it raises). *)
Definition decides (O : oracle) (q : obj -> obj * obj * Z) (b : bool) (a : option bool)
           (l : list obj) (w : world) (pre : list obj) (x : obj) (w' : world) : Prop :=
  exists post w1, l = pre ++ x :: post /\ answers O q (negb b) pre w w1 /\
    rich O (fst (fst (q x))) (snd (fst (q x))) (snd (q x)) w1 = (a, w').

(** Objects whose comparisons always succeed and agree with a typed order:
    [val] gives each object's value.  Values are not NaN. *)
Definition models_order {T} (O : oracle) (val : obj -> T) (cmp : T -> T -> option comparison) : Prop :=
  (forall a, cmp (val a) (val a) = Some Eq) /\
  forall a b op h, 0 <= op <= 5 ->
    exists r, O ((a, b, op) :: h) = Some r /\ (r = true <-> op_holds cmp op (val a) (val b)).

(** the values of an object operand *)
Definition vmem {T} (val : obj -> T) (mx : mem obj) : mem T := fun a => option_map val (mx a).

(** integers as objects: an object's value is its address and comparisons are
    those of Z *)
Definition zoracle : oracle := fun h =>
  match h with
  | (a, b, op) :: _ =>
      Some (if op =? 0 then a <? b else if op =? 1 then a <=? b else if op =? 2 then a =? b
            else if op =? 3 then negb (a =? b) else if op =? 4 then b <? a else b <=? a)
  | [] => None
  end.
