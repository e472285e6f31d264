(** Specifications used by the theorems about the reduction gufuncs.
    Nothing here refers to the model (M_Stat). *)
From Coq Require Import ZArith List Bool Reals Permutation Sorted.
From Verif Require Import CSem Num.
Import ListNotations.
Open Scope R_scope.

(** sum of a list of reals *)
Fixpoint rsum (l : list R) : R := match l with [] => 0 | a :: l' => a + rsum l' end.
Definition rmean (l : list R) : R := rsum l / INR (length l).
(** sum of squared deviations from the mean *)
Definition rss (l : list R) : R := rsum (map (fun x => (x - rmean l) * (x - rmean l)) l).
(** sum of the absolute values of the elements *)
Definition rsumabs (l : list R) : R := rsum (map Rabs l).

(** plain left-to-right summation in a given arithmetic *)
Definition fsum {T} (A : arith T) (l : list T) : T := fold_left (a_add A) l (a_ofZ A 0).

(** sum over all ordered pairs of |x_i - x_j| *)
Definition rpairs (l : list R) : R := rsum (map (fun a => rsum (map (fun b => Rabs (a - b)) l)) l).

(** the contract of std::sort, for input without NaN *)
Definition sort_contract {T} (cmp : T -> T -> option comparison) (sortf : list T -> list T) : Prop :=
  forall l, (forall v, In v l -> isnanb cmp v = false) ->
    Permutation l (sortf l) /\ StronglySorted (fun a b => leb cmp a b = true) (sortf l).

Definition constant (l : list R) : Prop := forall a b, In a l -> In b l -> a = b.

(** greatest element of a nonempty list of reals *)
Definition is_max (l : list R) (m : R) : Prop := In m l /\ forall a, In a l -> a <= m.
Definition is_min (l : list R) (m : R) : Prop := In m l /\ forall a, In a l -> m <= a.

(** inner product of two lists *)
Definition rdot (x y : list R) : R := rsum (map (fun q => fst q * snd q) (combine x y)).
(** sum of products of deviations *)
Definition rcov (x y : list R) : R :=
  rsum (map (fun q => (fst q - rmean x) * (snd q - rmean y)) (combine x y)).

(** a complex array: real part at the element address, imaginary part [sz] bytes later *)
Definition cview {T} (m : mem T) (p s sz : Z) (l : list (T * T)) : Prop :=
  (forall k z, nth_error l k = Some z ->
     m (p + Z.of_nat k * s) = Some (fst z) /\ m (p + Z.of_nat k * s + sz) = Some (snd z))%Z.

(** insertion sort: one function meeting [sort_contract], for the examples *)
Fixpoint insert {T} (cmp : T -> T -> option comparison) (a : T) (l : list T) : list T :=
  match l with
  | [] => [a]
  | b :: l' => if leb cmp a b then a :: b :: l' else b :: insert cmp a l'
  end.
Fixpoint isort {T} (cmp : T -> T -> option comparison) (l : list T) : list T :=
  match l with [] => [] | a :: l' => insert cmp a (isort cmp l') end.

(** x^p for x >= 0 and p > 0 *)
Definition rpow (a p : R) : R := if Req_EM_T a 0 then 0 else Rpower a p.
(** the p-norm of a list of absolute values *)
Definition pnorm (p : R) (l : list R) : R := rpow (rsum (map (fun a => rpow a p) l)) (/ p).
(** sum of squares *)
Definition rsumsq (l : list R) : R := rsum (map (fun a => a * a) l).

(** Pearson's correlation coefficient of two lists of reals *)
Definition pearson (x y : list R) : R := rcov x y / (sqrt (rss x) * sqrt (rss y)).

(** sums of elementwise minima and maxima *)
Definition rmins (x y : list R) : R := rsum (map (fun q => Rmin (fst q) (snd q)) (combine x y)).
Definition rmaxs (x y : list R) : R := rsum (map (fun q => Rmax (fst q) (snd q)) (combine x y)).

(** exp extended by exp(-inf) = 0 *)
Definition rexp (x : ER) : R := match x with Fin a => exp a | _ => 0 end.
(** softmax of reals and -inf *)
Definition rsoftmax (x : list ER) : list R := map (fun a => rexp a / rsum (map rexp x)) x.

(** the value is +inf *)
Definition posinf {T} (A : arith T) (x : T) : bool := a_isinf A x && gtb (a_cmp A) x (a_ofZ A 0).

(** rounded left-to-right sums in a given arithmetic *)
Definition fsumsq {T} (A : arith T) (l : list T) : T := fold_left (fun s x => a_add A s (a_mul A x x)) l (a_ofZ A 0).
Definition cfsumsq {T} (A : arith T) (l : list (T * T)) : T :=
    fold_left (fun s z => a_add A s (a_add A (a_mul A (fst z) (fst z)) (a_mul A (snd z) (snd z)))) l (a_ofZ A 0).
Definition fdot {T} (A : arith T) (x y : list T) : T :=
  fold_left (fun s q => a_add A s (a_mul A (fst q) (snd q))) (combine x y) (a_ofZ A 0).
