(** Specifications used by the theorems about signal functions.
    Nothing here refers to the model (M_Signal). *)
From Coq Require Import ZArith List Bool Reals SpecFloat.
From Flocq Require Import BinarySingleNaN.
From Verif Require Import CSem Num.
Import ListNotations.
Open Scope Z_scope.

(** ** fillnan1d: [fill_at ... x i v] says which value belongs at position [i] *)
Section Fill.
  Context {T : Type} (isnan : T -> bool) (nan : T) (line : T -> T -> Z -> Z -> T).

  Definition real_at (x : list T) (i : nat) (v : T) : Prop :=
    nth_error x i = Some v /\ isnan v = false.
  Definition nan_between (x : list T) (lo hi : nat) : Prop :=
    forall j v, (lo <= j < hi)%nat -> nth_error x j = Some v -> isnan v = true.

  Inductive fill_at (x : list T) (i : nat) : T -> Prop :=
  | fa_keep : forall v, real_at x i v -> fill_at x i v
  | fa_before : forall b vb, (i < b)%nat -> real_at x b vb -> nan_between x 0 b -> fill_at x i vb
  | fa_after : forall a va, (a < i < length x)%nat -> real_at x a va ->
                 nan_between x (S a) (length x) -> fill_at x i va
  | fa_gap : forall a b va vb, (a < i < b)%nat -> real_at x a va -> real_at x b vb ->
               nan_between x (S a) b ->
               fill_at x i (line va vb (Z.of_nat (i - a)) (Z.of_nat (b - a)))
  | fa_all : (i < length x)%nat -> nan_between x 0 (length x) -> fill_at x i nan.
End Fill.

(** the straight line through (0,a) and (g,b), at i *)
Definition rline (a b i g : R) : R := (a + (b - a) * i / g)%R.

Definition fin_or_nan (v : ER) : Prop := v = ENaN \/ exists r, v = Fin r.
Definition eline (a b : ER) (i g : Z) : ER :=
  match a, b with Fin a, Fin b => Fin (rline a b (IZR i) (IZR g)) | _, _ => ENaN end.

(** ** hysteresis_relay: the output is decided by the last sample that left the band *)
Section Relay.
  Context {T : Type} (cmp : T -> T -> option comparison) (lo hi lv hv init : T).
  Definition below (v : T) : Prop := cmp v lo = Some Lt.
  Definition above (v : T) : Prop := cmp v lo <> Some Lt /\ cmp v hi = Some Gt.
  Definition in_band (v : T) : Prop := ~ below v /\ ~ above v.
  (** [relay_at x i y]: y is what the relay shows after sample i *)
  Definition relay_at (x : list T) (i : nat) (y : T) : Prop :=
    (exists j v, (j <= i)%nat /\ nth_error x j = Some v /\
       (forall k u, (j < k <= i)%nat -> nth_error x k = Some u -> in_band u) /\
       ((below v /\ y = lv) \/ (above v /\ y = hv))) \/
    ((forall k u, (k <= i)%nat -> nth_error x k = Some u -> in_band u) /\ y = init).
End Relay.

(** ** backlash: [y] is the point of [x - h, x + h] nearest to [prev] *)
Definition nearest_in (x h prev y : R) : Prop :=
  (x - h <= y <= x + h /\ forall z, x - h <= z <= x + h -> Rabs (y - prev) <= Rabs (z - prev))%R.

(** [y0, y1, ...] is a run from [init] over the inputs [x] *)
Fixpoint backlash_run (h prev : R) (x ys : list R) : Prop :=
  match x, ys with
  | [], [] => True
  | a :: x', y :: ys' => nearest_in a h prev y /\ backlash_run h y x' ys'
  | _, _ => False
  end.

(** last element, or the default *)
Fixpoint last_or {T} (d : T) (l : list T) : T :=
  match l with [] => d | a :: l' => last_or a l' end.

(** ** sosfilter: one section [b0 b1 b2 a0 a1 a2] *)
Record section (T : Type) := mkSec { sb0 : T; sb1 : T; sb2 : T; sa0 : T; sa1 : T; sa2 : T }.
Arguments mkSec {T}. Arguments sb0 {T}. Arguments sb1 {T}. Arguments sb2 {T}.
Arguments sa0 {T}. Arguments sa1 {T}. Arguments sa2 {T}.
Definition sec_row {T} (s : section T) : list T := [sb0 s; sb1 s; sb2 s; sa0 s; sa1 s; sa2 s].
Definition st_row {T} (z : T * T) : list T := [fst z; snd z].

(** Direct form II difference equation of a section with a0 = 1, in terms of
    x and y only; x[-1], x[-2], y[-1], y[-2] are 0. *)
Definition at0 (l : list R) (i : nat) (d : nat) : R :=
  if (i <? d)%nat then 0%R else nth (i - d) l 0%R.
Definition diff_eq (s : section R) (x y : list R) : Prop :=
  length y = length x /\
  forall i, (i < length x)%nat ->
    (at0 y i 0 = sb0 s * at0 x i 0 + sb1 s * at0 x i 1 + sb2 s * at0 x i 2
                 - sa1 s * at0 y i 1 - sa2 s * at0 y i 2)%R.

(** ** linear_interp1d *)
(** the ordinate at [x] of the line through (x0,y0) and (x1,y1) *)
Definition on_line (x0 y0 x1 y1 x y : R) : Prop :=
  ((y - y0) * (x1 - x0) = (y1 - y0) * (x - x0))%R.

(** ** unwrap: [y] is [x] shifted by whole periods, as close to [prev] as possible *)
Definition unwrap_ok (P prev x y : R) : Prop :=
  ((exists q : Z, y = x - IZR q * P) /\ Rabs (y - prev) <= P / 2)%R.
Fixpoint unwrap_run (P prev : R) (x ys : list R) : Prop :=
  match x, ys with
  | [], [] => True
  | a :: x', y :: ys' => unwrap_ok P prev a y /\ unwrap_run P y x' ys'
  | _, _ => False
  end.
(** consecutive differences below half a period *)
Fixpoint small_steps (P prev : R) (x : list R) : Prop :=
  match x with
  | [] => True
  | a :: x' => (Rabs (a - prev) < P / 2)%R /\ small_steps P a x'
  end.

(** ** sosfilter: whole-signal filtering, one section after the other *)
Section SosSpec.
  Context {T : Type} (A : arith T).
  (** transposed direct form II: output and next state *)
  Definition sec_step (s : section T) (z : T * T) (x : T) : T * (T * T) :=
    let y := a_add A (a_mul A (sb0 s) x) (fst z) in
    (y, (a_sub A (a_add A (snd z) (a_mul A (sb1 s) x)) (a_mul A (sa1 s) y),
         a_sub A (a_mul A (sb2 s) x) (a_mul A (sa2 s) y))).
  Fixpoint sec_filter (s : section T) (z : T * T) (xs : list T) : list T * (T * T) :=
    match xs with
    | [] => ([], z)
    | x :: xs' => let '(y, z') := sec_step s z x in
                  let '(ys, zf) := sec_filter s z' xs' in (y :: ys, zf)
    end.
  Fixpoint cascade (secs : list (section T)) (zs : list (T * T)) (xs : list T)
    : list T * list (T * T) :=
    match secs, zs with
    | s :: secs', z :: zs' =>
        let '(ys, zf) := sec_filter s z xs in
        let '(out, zfs) := cascade secs' zs' ys in (out, zf :: zfs)
    | _, _ => (xs, [])
    end.
End SosSpec.

(** ** sosfilter in exact arithmetic: the difference equation of each section,
    one after the other *)
Fixpoint sos_eq (secs : list (section R)) (xs ys : list R) : Prop :=
  match secs with
  | [] => ys = xs
  | s :: secs' => exists us, diff_eq s xs us /\ sos_eq secs' us ys
  end.
Definition fsec (s : section R) : section ER :=
  mkSec (Fin (sb0 s)) (Fin (sb1 s)) (Fin (sb2 s)) (Fin (sa0 s)) (Fin (sa1 s)) (Fin (sa2 s)).
(** [c1*l1 + c2*l2], elementwise *)
Fixpoint lin (c1 : R) (l1 : list R) (c2 : R) (l2 : list R) : list R :=
  match l1, l2 with
  | a :: l1', b :: l2' => (c1 * a + c2 * b)%R :: lin c1 l1' c2 l2'
  | _, _ => []
  end.

(** ** linear_interp1d, for any comparison *)
Definition increasing {T} (cmp : T -> T -> option comparison) (xs : list T) : Prop :=
  forall i j a b, (i < j)%nat -> nth_error xs i = Some a -> nth_error xs j = Some b -> ltb cmp a b = true.
(** [v] is the interpolated value at [x]: nan outside, the tabulated value at a
    node, [line] between two consecutive nodes. *)
Definition interp_at {T} (A : arith T) (line : T -> T -> T -> T -> T -> T) (xs fs : list T) (x v : T) : Prop :=
  (forall a, nth_error xs 0 = Some a -> ltb (a_cmp A) x a = true -> v = a_nan A) /\
  (forall a, nth_error xs (length xs - 1) = Some a -> ltb (a_cmp A) a x = true -> v = a_nan A) /\
  (forall k a b, nth_error xs k = Some a -> nth_error fs k = Some b -> eqb (a_cmp A) x a = true -> v = b) /\
  (forall k a a' b b', nth_error xs k = Some a -> nth_error xs (k + 1) = Some a' ->
     nth_error fs k = Some b -> nth_error fs (k + 1) = Some b' ->
     ltb (a_cmp A) a x = true -> ltb (a_cmp A) x a' = true -> v = line a b a' b' x).
(** the two evaluation orders used by the code *)
Definition line_general {T} (A : arith T) (x0 y0 x1 y1 x : T) : T :=
  a_add A y0 (a_mul A (a_div A (a_sub A y1 y0) (a_sub A x1 x0)) (a_sub A x x0)).
Definition line_fast {T} (A : arith T) (x0 y0 x1 y1 x : T) : T :=
  a_add A y0 (a_mul A (a_div A (a_sub A x x0) (a_sub A x1 x0)) (a_sub A y1 y0)).

(** exact arithmetic, on reals *)
Definition rinterp_at (xs fs : list R) (x : R) (v : ER) : Prop :=
  (forall a, nth_error xs 0 = Some a -> (x < a)%R -> v = ENaN) /\
  (forall a, nth_error xs (length xs - 1) = Some a -> (a < x)%R -> v = ENaN) /\
  (forall k b, nth_error xs k = Some x -> nth_error fs k = Some b -> v = Fin b) /\
  (forall k a a' b b', nth_error xs k = Some a -> nth_error xs (k + 1) = Some a' ->
     nth_error fs k = Some b -> nth_error fs (k + 1) = Some b' ->
     (a < x < a')%R -> exists y, v = Fin y /\ on_line a b a' b' x y).
Definition rincreasing (xs : list R) : Prop :=
  forall i j a b, (i < j)%nat -> nth_error xs i = Some a -> nth_error xs j = Some b -> (a < b)%R.

(** iteration [j] of the gufunc loop sees (x, xp, fp), all of core length [n] *)
Definition row_ok {T} (A : arith T) (n : nat) (mx : mem T) (px sx0 : Z) (mxp : mem T) (pxp sxp0 xps : Z)
           (mfp : mem T) (pfp sfp0 fps : Z) (j : nat) (r : T * list T * list T) : Prop :=
  let '(x, xs, fs) := r in
  (mx (px + Z.of_nat j * sx0) = Some x /\ length xs = n /\ length fs = n /\
   view mxp (pxp + Z.of_nat j * sxp0) xps xs /\ view mfp (pfp + Z.of_nat j * sfp0) fps fs /\
   isnanb (a_cmp A) x = false /\ (forall a, In a xs -> isnanb (a_cmp A) a = false) /\ increasing (a_cmp A) xs)%Z.
Definition rrow_ok (n : nat) (mx : mem ER) (px sx0 : Z) (mxp : mem ER) (pxp sxp0 xps : Z)
           (mfp : mem ER) (pfp sfp0 fps : Z) (j : nat) (r : R * list R * list R) : Prop :=
  let '(x, xs, fs) := r in
  (mx (px + Z.of_nat j * sx0) = Some (Fin x) /\ length xs = n /\ length fs = n /\
   view mxp (pxp + Z.of_nat j * sxp0) xps (map Fin xs) /\ view mfp (pfp + Z.of_nat j * sfp0) fps (map Fin fs) /\
   rincreasing xs)%Z.

(** the first [n] doubles of an output at address 0, used in counterexamples *)
Definition f64_outs (n : nat) (r : M (mem f64)) : option (list (option spec_float)) :=
  option_map (fun mo : mem f64 => map (fun i => option_map B2SF (mo (Z.of_nat i * 8)%Z)) (seq 0 n)) r.

(** filter states: finite ones, and [c1*z1 + c2*z2] *)
Definition fst_st (z : R * R) : ER * ER := (Fin (fst z), Fin (snd z)).
Fixpoint lin2 (c1 : R) (l1 : list (R * R)) (c2 : R) (l2 : list (R * R)) : list (R * R) :=
  match l1, l2 with
  | a :: l1', b :: l2' =>
      (c1 * fst a + c2 * fst b, c1 * snd a + c2 * snd b)%R :: lin2 c1 l1' c2 l2'
  | _, _ => []
  end.
