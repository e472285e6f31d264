(** * CSem: the fragment of C semantics used by the model

    - [M A = option A] : the undefined-behaviour monad.  [None] means the C code
      would access memory that does not belong to the operand, or divide an
      integer by zero.
    - [mem T] : the memory of one operand, a partial map from byte addresses of
      elements to elements.
    - [get]/[set] : the strided accessors of src/util/strided.hpp.
    - [for_loop] : [for (k = lo; k < hi; ++k)] with [continue]/[break]/[return].

    Simplifications: an element occupies the single address of its first byte,
    so partially overlapping elements cannot be expressed; every operand has
    its own memory (NumPy copies overlapping operands before it calls a loop). *)

From Coq Require Import ZArith List Bool Lia.
Import ListNotations.
Open Scope Z_scope.

Definition M (A : Type) : Type := option A.
Definition ret {A} (a : A) : M A := Some a.
Definition ub {A} : M A := None.
Definition bind {A B} (x : M A) (f : A -> M B) : M B :=
  match x with Some a => f a | None => None end.

Declare Scope m_scope.
Delimit Scope m_scope with M.
Notation "x <- e ;; f" := (bind e (fun x => f))
  (at level 61, e at next level, right associativity) : m_scope.
Notation "' p <- e ;; f" := (bind e (fun p => f))
  (at level 61, p pattern, e at next level, right associativity) : m_scope.
Open Scope m_scope.

(** ** Memory *)

Definition mem (T : Type) := Z -> option T.

Definition load {T} (m : mem T) (a : Z) : M T := m a.

Definition store {T} (m : mem T) (a : Z) (v : T) : M (mem T) :=
  match m a with
  | Some _ => Some (fun b => if b =? a then Some v else m b)
  | None => None
  end.

(** src/util/strided.hpp:10-15
    [template<T> T get(const T *px, stride, index)]
    reads the T stored [index*stride] bytes after [px]. *)
Definition get {T} (m : mem T) (p stride k : Z) : M T := load m (p + k * stride).

(** src/util/strided.hpp:17-22  [set(px, stride, index, value)]. *)
Definition set {T} (m : mem T) (p stride k : Z) (v : T) : M (mem T) :=
  store m (p + k * stride) v.

(** src/util/strided.hpp:24-29  [get2d(px, strides, i, j)]. *)
Definition get2d {T} (m : mem T) (p s0 s1 i j : Z) : M T :=
  load m (p + i * s0 + j * s1).

(** src/util/strided.hpp:31-36  [set2d(px, strides, i, j, value)]. *)
Definition set2d {T} (m : mem T) (p s0 s1 i j : Z) (v : T) : M (mem T) :=
  store m (p + i * s0 + j * s1) v.

(** ** Loops *)

Inductive ctl (S R : Type) : Type :=
| Next (s : S)      (* fall off the end of the body, or [continue] *)
| Brk (s : S)       (* [break] *)
| Ret (r : R).      (* [return] from the enclosing function *)
Arguments Next {S R}. Arguments Brk {S R}. Arguments Ret {S R}.

Fixpoint loop_from {S R : Type} (n : nat) (k : Z)
         (body : Z -> S -> M (ctl S R)) (s : S) : M (S + R) :=
  match n with
  | O => Some (inl s)
  | Datatypes.S n' =>
      match body k s with
      | None => None
      | Some (Next s') => loop_from n' (k + 1) body s'
      | Some (Brk s') => Some (inl s')
      | Some (Ret r) => Some (inr r)
      end
  end.

(** [for (npy_intp k = lo; k < hi; ++k) body], where [body] does not modify k. *)
Definition for_loop {S R : Type} (lo hi : Z)
           (body : Z -> S -> M (ctl S R)) (s : S) : M (S + R) :=
  loop_from (Z.to_nat (hi - lo)) lo body s.

(** A loop whose body neither breaks nor returns. *)
Fixpoint iter_from {S : Type} (n : nat) (k : Z)
         (body : Z -> S -> M S) (s : S) : M S :=
  match n with
  | O => Some s
  | Datatypes.S n' => s' <- body k s ;; iter_from n' (k + 1) body s'
  end.

Definition for_each {S : Type} (lo hi : Z) (body : Z -> S -> M S) (s : S) : M S :=
  iter_from (Z.to_nat (hi - lo)) lo body s.

(** ** C comparison operators from a three-way comparison

    [cmp x y = None] means unordered (one operand is NaN). *)

Section Cmp.
  Context {T : Type} (cmp : T -> T -> option comparison).
  Definition ltb (x y : T) : bool := match cmp x y with Some Lt => true | _ => false end.
  Definition leb (x y : T) : bool :=
    match cmp x y with Some Lt | Some Eq => true | _ => false end.
  Definition gtb (x y : T) : bool := match cmp x y with Some Gt => true | _ => false end.
  Definition geb (x y : T) : bool :=
    match cmp x y with Some Gt | Some Eq => true | _ => false end.
  Definition eqb (x y : T) : bool := match cmp x y with Some Eq => true | _ => false end.
  Definition neb (x y : T) : bool := negb (eqb x y).
  (** [isnan(x)], equivalently [x != x]. *)
  Definition isnanb (x : T) : bool := match cmp x x with None => true | Some _ => false end.
End Cmp.

Definition Zcmp (x y : Z) : option comparison := Some (Z.compare x y).

(** ** Layout: the logical list [l] is stored at base [p] with byte stride [s] *)

Definition view {T} (m : mem T) (p s : Z) (l : list T) : Prop :=
  forall k, (k < length l)%nat -> m (p + Z.of_nat k * s) = nth_error l k.

(** [a] is not one of the [n] cells at base [p], stride [s]. *)
Definition outside (p s : Z) (n : nat) (a : Z) : Prop :=
  forall k, (k < n)%nat -> a <> p + Z.of_nat k * s.

(** The memory changed exactly at the [length l] cells at (p, s), which now hold [l]. *)
Definition wrote {T} (m m' : mem T) (p s : Z) (l : list T) : Prop :=
  view m' p s l /\ forall a, outside p s (length l) a -> m' a = m a.

(** The computation [r], started on output memory [m], is defined and writes [l]. *)
Definition writes {T} (r : M (mem T)) (m : mem T) (p s : Z) (l : list T) : Prop :=
  exists m', r = Some m' /\ wrote m m' p s l.

(** [n] cells at (p,s) are owned and pairwise distinct (a valid output operand). *)
Definition writable {T} (m : mem T) (p s : Z) (n : nat) : Prop :=
  (forall k, (k < n)%nat -> m (p + Z.of_nat k * s) <> None) /\
  (s <> 0 \/ (n <= 1)%nat).

(** A contiguous memory holding [l] from address [p] on with element size [sz]
    and nothing else; used in examples. *)
Definition mem_of {T} (p sz : Z) (l : list T) : mem T :=
  fun a => if (a <? p) || negb ((a - p) mod sz =? 0) then None
           else nth_error l (Z.to_nat ((a - p) / sz)).

(** ** Two-dimensional operands: row [i], column [j] at [p + i*s0 + j*s1] *)

Definition view2 {T} (m : mem T) (p s0 s1 : Z) (rows : list (list T)) : Prop :=
  forall i j row x, nth_error rows i = Some row -> nth_error row j = Some x ->
    m (p + Z.of_nat i * s0 + Z.of_nat j * s1) = Some x.

Definition writable2 {T} (m : mem T) (p s0 s1 : Z) (nr nc : nat) : Prop :=
  (forall i j, (i < nr)%nat -> (j < nc)%nat -> m (p + Z.of_nat i * s0 + Z.of_nat j * s1) <> None) /\
  (forall i j i' j', (i < nr)%nat -> (j < nc)%nat -> (i' < nr)%nat -> (j' < nc)%nat ->
     p + Z.of_nat i * s0 + Z.of_nat j * s1 = p + Z.of_nat i' * s0 + Z.of_nat j' * s1 -> i = i' /\ j = j').

Definition outside2 (p s0 s1 : Z) (nr nc : nat) (a : Z) : Prop :=
  forall i j, (i < nr)%nat -> (j < nc)%nat -> a <> p + Z.of_nat i * s0 + Z.of_nat j * s1.

(** The memory changed exactly at the [length rows * nc] cells, which now hold [rows]. *)
Definition wrote2 {T} (m m' : mem T) (p s0 s1 : Z) (nc : nat) (rows : list (list T)) : Prop :=
  view2 m' p s0 s1 rows /\ forall a, outside2 p s0 s1 (length rows) nc a -> m' a = m a.
