(** * M_Int: model of the integer gufuncs
    bincount, bincountw, convert_to_base, one_hot, peaktopeak, issnan, and of
    the default m of the bincount wrapper.

    A C integer type is given by [ity] (signedness and width); its values are
    elements of Z in range. *)
From Coq Require Import ZArith List Bool.
From Verif Require Import CSem.
Import ListNotations.
Open Scope Z_scope.

Record ity := mkI { isgn : bool; iwid : Z }.
Definition int8 := mkI true 8.   Definition uint8 := mkI false 8.
Definition int16 := mkI true 16. Definition uint16 := mkI false 16.
Definition int32 := mkI true 32. Definition uint32 := mkI false 32.
Definition int64 := mkI true 64. Definition uint64 := mkI false 64.

Definition imin (t : ity) : Z := if isgn t then - 2 ^ (iwid t - 1) else 0.
Definition imax (t : ity) : Z := if isgn t then 2 ^ (iwid t - 1) - 1 else 2 ^ iwid t - 1.
Definition in_range (t : ity) (z : Z) : bool := (imin t <=? z) && (z <=? imax t).

(** Conversion to an integer type (modulo 2^width; implementation-defined before
    C++20/C23 for signed types, this is what every supported compiler does). *)
Definition wrap (t : ity) (z : Z) : Z :=
  if isgn t then (z + 2 ^ (iwid t - 1)) mod 2 ^ iwid t - 2 ^ (iwid t - 1)
  else z mod 2 ^ iwid t.

(** [static_cast<npy_intp>(k)] on a 64 bit platform. *)
Definition to_intp (z : Z) : Z := wrap int64 z.

(** ** src/bincount/bincount_gufunc.h *)

(** bincount_gufunc.h:36-40, 45-49, 55-59: the loop body of the three branches of
    [bincount_core_calc]; the branches differ in how x[i] and out[k] are addressed:
    [p_x[i]] is [get] with stride sizeof(T), [p_out[k]] is address arithmetic modulo
    2^64 with scale sizeof(U), i.e. index [to_intp k].
    [U] is npy_intp (define_cxx_gufunc_extmod.py:27); the increment is modelled
    modulo 2^64 although signed overflow is undefined in C. *)
Definition bincount_step (mlen : Z) (po so : Z) (k : Z) (mo : mem Z) : M (mem Z) :=
  if (0 <=? k) && (to_intp k <? mlen) then
    c <- get mo po so (to_intp k) ;;
    set mo po so (to_intp k) (wrap int64 (c + 1))
  else ret mo.

(** bincount_gufunc.h:21-61 [bincount_core_calc]; [szT], [szU] = sizeof. *)
Definition bincount_core_calc (szT szU n mlen : Z) (mx : mem Z) (px sx : Z)
           (mo : mem Z) (po so : Z) : M (mem Z) :=
  if sx =? szT then
    if so =? szU then
      for_each 0 n (fun i mo => k <- get mx px szT i ;; bincount_step mlen po szU k mo) mo
    else
      for_each 0 n (fun i mo => k <- get mx px szT i ;; bincount_step mlen po so k mo) mo
  else
    for_each 0 n (fun i mo => k <- get mx px sx i ;; bincount_step mlen po so k mo) mo.

Section W.
  (** [add] is addition of the weight type W: wrapped integer addition, IEEE
      addition, or component-wise addition of complex numbers
      (bincount_gufunc.h:96-108 [npy_complex_add_inplace]). *)
  Context {W : Type} (add : W -> W -> W).

  (** bincount_gufunc.h:67-93 [bincountw_core_calc] and 115-139
      [bincountw_complex_core_calc] *)
  Definition bincountw_core_calc (n mlen : Z) (mx : mem Z) (px sx : Z)
             (mw : mem W) (pw sw : Z) (mo : mem W) (po so : Z) : M (mem W) :=
    for_each 0 n
      (fun i mo =>
         k <- get mx px sx i ;;
         if (0 <=? k) && (to_intp k <? mlen) then
           w <- get mw pw sw i ;;
           c <- get mo po so (to_intp k) ;;
           set mo po so (to_intp k) (add c w)
         else ret mo) mo.
End W.

(** ufunclab/_wrapped.py:163-164 [m = max(np.max(x) + 1, 0)]: np.max(x) is a NumPy
    scalar of the dtype of x and the addition of the Python int 1 is done in that
    dtype (NEP 50; the project requires NumPy >= 2.1).  Empty x: np.max raises,
    [None]. *)
Definition bincount_default_m (t : ity) (x : list Z) : option Z :=
  match x with
  | [] => None
  | a :: l => Some (Z.max (wrap t (fold_left Z.max l a + 1)) 0)
  end.

(** ufunclab/_wrapped.py:163-202 for one-dimensional x, no weights and no out:
    zeros of length m, then the gufunc (freshly allocated contiguous output). *)
Definition bincount_call (t : ity) (x : list Z) : option (M (mem Z * Z)) :=
  match bincount_default_m t x with
  | None => None
  | Some m =>
      Some (mo <- bincount_core_calc 8 8 (Z.of_nat (length x)) m (mem_of 0 8 x) 0 8
                   (mem_of 0 8 (repeat 0 (Z.to_nat m))) 0 8 ;;
            ret (mo, m))
  end.

(** ** src/convert_to_base/convert_to_base_gufunc.h *)

(** C's [k / base] and [k % base] for operands of type [t], converted back to [t].
    Operands narrower than int are promoted, so MIN / -1 only overflows (undefined
    behaviour, SIGFPE on x86) for 32 and 64 bit signed types. *)
Definition c_divrem (t : ity) (k base : Z) : M (Z * Z) :=
  if base =? 0 then ub
  else if isgn t && (32 <=? iwid t) && (k =? imin t) && (base =? -1) then ub
  else ret (wrap t (Z.quot k base), wrap t (Z.rem k base)).

(** convert_to_base_gufunc.h:12-27 *)
Definition convert_to_base_core_calc (t : ity) (n : Z) (k base : Z)
           (mo : mem Z) (po so : Z) : M (mem Z) :=
  r <- for_each 0 n
    (fun i st => let '(k, mo) := st in
       qr <- c_divrem t k base ;;
       mo' <- set mo po so i (snd qr) ;;
       ret (fst qr, mo')) (k, mo) ;;
  ret (snd r).

(** ** src/one_hot/one_hot_gufunc.h:20-40 *)
(** [memset(p_out, 0, n*sizeof(T))] writes the n elements that are sizeof(T)
    apart; T = npy_intp. *)
Definition one_hot_core_calc (n x : Z) (mo : mem Z) (po so : Z) : M (mem Z) :=
  mo1 <- (if so =? 8 then for_each 0 n (fun i mo => set mo po 8 i 0) mo
          else for_each 0 n (fun i mo => set mo po so i 0) mo) ;;
  if (0 <=? x) && (x <? n) then set mo1 po so x 1 else ret mo1.

(** ** src/peaktopeak/peaktopeak_gufunc.c.src *)
Section P2P.
  Context {T : Type} (cmp : T -> T -> option comparison).

  (** peaktopeak_gufunc.c.src:43-53 extrema of [peaktopeak_@typename@_contig] *)
  Definition p2p_scan_contig (sz n : Z) (mx : mem T) (px : Z) : M (T * T) :=
    x0 <- load mx px ;;
    for_each 1 n (fun i st => let '(xmin, xmax) := st in
      xi <- get mx px sz i ;;
      ret (if ltb cmp xi xmin then xi else xmin, if gtb cmp xi xmax then xi else xmax)) (x0, x0).

  (** peaktopeak_gufunc.c.src:100-114 extrema of [peaktopeak_@typename@_loop] *)
  Definition p2p_scan (sx n : Z) (mx : mem T) (px : Z) : M (T * T) :=
    x0 <- load mx px ;;
    for_each 1 n (fun i st => let '(xmin, xmax) := st in
      x <- get mx px sx i ;;
      ret (if ltb cmp x xmin then (x, xmax) else if gtb cmp x xmax then (xmin, x) else (xmin, xmax))) (x0, x0).

  (** peaktopeak_gufunc.c.src:77-121 one slice of the loop: [None] = ValueError
      (n == 0); [diff xmax xmin] is the subtraction of the type. *)
  Definition peaktopeak_core {U} (diff : T -> T -> M U) (sz n : Z) (mx : mem T) (px sx : Z)
    : M (option U) :=
    if n =? 0 then ret None
    else
      mm <- (if sx =? sz then p2p_scan_contig sz n mx px else p2p_scan sx n mx px) ;;
      r <- diff (snd mm) (fst mm) ;; ret (Some r).
End P2P.

(** peaktopeak_gufunc.c.src:31-40 [max_diff_@typename@] for a signed type of
    width [w] with unsigned output, two's-complement arithmetic. *)
Definition max_diff (w : Z) (xmax xmin : Z) : M Z :=
  let u := mkI false w in
  if ((0 <? xmax) && (0 <? xmin)) || ((xmax <=? 0) && (xmin <=? 0)) then
    ret (wrap u (xmax - xmin))
  else ret (wrap u (xmax + wrap u (- xmin))).

(** The same with the undefined behaviour of signed overflow: [xmax - xmin] and
    [-xmin] are computed in [int] (w <= 32) or [int64_t]. *)
Definition max_diff_strict (w : Z) (xmax xmin : Z) : M Z :=
  let u := mkI false w in
  let s := mkI true (Z.max 32 w) in
  if ((0 <? xmax) && (0 <? xmin)) || ((xmax <=? 0) && (xmin <=? 0)) then
    if in_range s (xmax - xmin) then ret (wrap u (xmax - xmin)) else ub
  else if in_range s (- xmin) then ret (wrap u (xmax + wrap u (- xmin))) else ub.

(** unsigned: [xmax - xmin] (line 56, 118) converted to the same type. *)
Definition udiff (w : Z) (xmax xmin : Z) : M Z := ret (wrap (mkI false w) (xmax - xmin)).

(** ** src/issnan/issnan_ufunc.c.src:20-32 (masks), 39-65 *)
Definition issnan_bits (expquiet exp payload v : Z) : bool :=
  (Z.land v expquiet =? exp) && negb (Z.land v payload =? 0).
Definition issnanh (v : Z) : bool := issnan_bits 0x7E00 0x7C00 0x01FF v.
Definition issnanf (v : Z) : bool := issnan_bits 0x7FC00000 0x7F800000 0x003FFFFF v.
Definition issnan (v : Z) : bool :=
  issnan_bits 0x7FF8000000000000 0x7FF0000000000000 0x0007FFFFFFFFFFFF v.
