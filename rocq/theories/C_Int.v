(** Property theorems C10, C13, C14, C15, C16, C47: integer gufuncs. *)
From Coq Require Import ZArith List Bool Lia.
From Flocq Require Import Core Bits Binary.
From Verif Require Import CSem CSemP Num NumP M_Select S_Select P_Select M_Int S_Int P_Int.
Import ListNotations.
Open Scope Z_scope.

(** ** C10 peaktopeak.  [max_diff] is the two's-complement reading of the
    subtraction, [max_diff_strict] makes signed overflow undefined ([None]). *)
Theorem C10_peaktopeak_signed :
  forall w sz mx px sx x0 l,
  1 <= w -> view mx px sx (x0 :: l) -> (forall x, In x (x0 :: l) -> fits true w x) ->
  exists a b, is_max (x0 :: l) a /\ is_min (x0 :: l) b /\ fits false w (a - b) /\
    peaktopeak_core Zcmp (max_diff w) sz (Z.of_nat (length (x0 :: l))) mx px sx = Some (Some (a - b)) /\
    peaktopeak_core Zcmp (max_diff_strict w) sz (Z.of_nat (length (x0 :: l))) mx px sx =
      (if (32 <=? w) && (b =? - 2 ^ (w - 1)) && (0 <=? a) then None else Some (Some (a - b))).
Proof. exact peaktopeak_signed. Qed.
Print Assumptions C10_peaktopeak_signed.

Theorem C10_peaktopeak_unsigned :
  forall w sz mx px sx x0 l,
  1 <= w -> view mx px sx (x0 :: l) -> (forall x, In x (x0 :: l) -> fits false w x) ->
  exists a b, is_max (x0 :: l) a /\ is_min (x0 :: l) b /\ fits false w (a - b) /\
    peaktopeak_core Zcmp (udiff w) sz (Z.of_nat (length (x0 :: l))) mx px sx = Some (Some (a - b)).
Proof. exact peaktopeak_unsigned. Qed.
Print Assumptions C10_peaktopeak_unsigned.

(** every type (in particular floats, [diff a b] = IEEE a - b): the contiguous
    path (sx = sz) and the strided path both apply [diff] to the extrema found
    by max_argmax and min_argmin (C09). *)
Theorem C10_peaktopeak_any_type :
  forall {T} (cmp : T -> T -> option comparison), cmp_laws cmp ->
  forall {U} (diff : T -> T -> M U) sz mx px sx x0 l,
    view mx px sx (x0 :: l) ->
    exists xmin imin xmax imax,
      min_argmin_core cmp (Z.of_nat (length (x0 :: l))) mx px sx = Some (xmin, imin) /\
      max_argmax_core cmp (Z.of_nat (length (x0 :: l))) mx px sx = Some (xmax, imax) /\
      peaktopeak_core cmp diff sz (Z.of_nat (length (x0 :: l))) mx px sx = option_map Some (diff xmax xmin).
Proof. exact @peaktopeak_general. Qed.
Print Assumptions C10_peaktopeak_any_type.

(** in strict C the int32 (and int64) loop has undefined behaviour on MIN *)
Theorem C10_peaktopeak_strict_refuted :
  exists x : list Z, (forall k, In k x -> fits true 32 k) /\ view (mem_of 0 4 x) 0 4 x /\
    peaktopeak_core Zcmp (max_diff_strict 32) 4 (Z.of_nat (length x)) (mem_of 0 4 x) 0 4 = None.
Proof. exact peaktopeak_strict_refuted. Qed.
Print Assumptions C10_peaktopeak_strict_refuted.

Example C10_ex :
  peaktopeak_core Zcmp (max_diff 8) 1 4 (mem_of 0 1 [3; -128; 127; 0]) 0 1 = Some (Some 255) /\
  peaktopeak_core Zcmp (max_diff_strict 8) 1 4 (mem_of 0 1 [3; -128; 127; 0]) 3 (-1) = Some (Some 255) /\
  peaktopeak_core Zcmp (max_diff_strict 32) 4 3 (mem_of 0 4 [-7; -20; -9]) 0 4 = Some (Some 13) /\
  peaktopeak_core Zcmp (udiff 8) 1 0 (mem_of 0 1 []) 0 1 = Some None.
Proof. vm_compute. auto. Qed.

(** ** C13 bincount *)
Theorem C13_bincount_correct :
  forall szT szU mx px sx (x : list Z) mo po so out,
  view mx px sx x -> view mo po so out -> writable mo po so (length out) ->
  (forall k, In k x -> -2 ^ 63 <= k < 2 ^ 63) ->
  exists mo', bincount_core_calc szT szU (Z.of_nat (length x)) (Z.of_nat (length out)) mx px sx mo po so = Some mo' /\
    (forall i o c, nth_error out i = Some o -> fits true 64 o -> occ (fun k => k = Z.of_nat i) x c ->
       exists o', mo' (po + Z.of_nat i * so) = Some o' /\ fits true 64 o' /\ (o' - (o + c)) mod 2 ^ 64 = 0) /\
    (forall a, outside po so (length out) a -> mo' a = mo a).
Proof. exact bincount_correct. Qed.
Print Assumptions C13_bincount_correct.

Theorem C13_bincount_exact :
  forall szT szU mx px sx (x : list Z) mo po so out,
  view mx px sx x -> view mo po so out -> writable mo po so (length out) ->
  (forall k, In k x -> -2 ^ 63 <= k < 2 ^ 63) ->
  (forall o, In o out -> 0 <= o < 2 ^ 63 - Z.of_nat (length x)) ->
  exists mo', bincount_core_calc szT szU (Z.of_nat (length x)) (Z.of_nat (length out)) mx px sx mo po so = Some mo' /\
    (forall i o c, nth_error out i = Some o -> occ (fun k => k = Z.of_nat i) x c ->
       mo' (po + Z.of_nat i * so) = Some (o + c)) /\
    (forall a, outside po so (length out) a -> mo' a = mo a).
Proof. exact bincount_exact. Qed.
Print Assumptions C13_bincount_exact.

Theorem C13_bincountw_correct :
  forall {W} (add : W -> W -> W) mx px sx mw pw sw (x : list Z) (w : list W) mo po so out,
    view mx px sx x -> view mw pw sw w -> length w = length x ->
    view mo po so out -> writable mo po so (length out) ->
    (forall k, In k x -> -2 ^ 63 <= k < 2 ^ 63) ->
    exists mo', bincountw_core_calc add (Z.of_nat (length x)) (Z.of_nat (length out)) mx px sx mw pw sw mo po so = Some mo' /\
      (forall i o, nth_error out i = Some o ->
         mo' (po + Z.of_nat i * so) = Some (fold_left add (weights_of (Z.of_nat i) x w) o)) /\
      (forall a, outside po so (length out) a -> mo' a = mo a).
Proof. exact @bincountw_correct. Qed.
Print Assumptions C13_bincountw_correct.

Theorem C13_bincount_accumulates :
  forall szT szU mx1 px1 sx1 x1 mx2 px2 sx2 x2 mx px sx mlen mo po so szT' szU' szT'' szU'',
  view mx1 px1 sx1 x1 -> view mx2 px2 sx2 x2 -> view mx px sx (x1 ++ x2) ->
  bind (bincount_core_calc szT szU (Z.of_nat (length x1)) mlen mx1 px1 sx1 mo po so)
       (fun mo' => bincount_core_calc szT' szU' (Z.of_nat (length x2)) mlen mx2 px2 sx2 mo' po so) =
  bincount_core_calc szT'' szU'' (Z.of_nat (length (x1 ++ x2))) mlen mx px sx mo po so.
Proof. exact bincount_accumulates. Qed.
Print Assumptions C13_bincount_accumulates.

Theorem C13_bincountw_accumulates :
  forall {W} (add : W -> W -> W) mx1 px1 sx1 mw1 pw1 sw1 x1 (w1 : list W) mx2 px2 sx2 mw2 pw2 sw2 x2 w2
        mx px sx mw pw sw mlen mo po so,
    view mx1 px1 sx1 x1 -> view mw1 pw1 sw1 w1 -> length w1 = length x1 ->
    view mx2 px2 sx2 x2 -> view mw2 pw2 sw2 w2 -> length w2 = length x2 ->
    view mx px sx (x1 ++ x2) -> view mw pw sw (w1 ++ w2) ->
    bind (bincountw_core_calc add (Z.of_nat (length x1)) mlen mx1 px1 sx1 mw1 pw1 sw1 mo po so)
         (fun mo' => bincountw_core_calc add (Z.of_nat (length x2)) mlen mx2 px2 sx2 mw2 pw2 sw2 mo' po so) =
    bincountw_core_calc add (Z.of_nat (length (x1 ++ x2))) mlen mx px sx mw pw sw mo po so.
Proof. exact @bincountw_accumulates. Qed.
Print Assumptions C13_bincountw_accumulates.

Theorem C13_bincountw_ones :
  forall szT szU mlen mx px sx (x : list Z) mw pw sw mo po so,
  view mx px sx x -> view mw pw sw (repeat 1 (length x)) ->
  bincount_core_calc szT szU (Z.of_nat (length x)) mlen mx px sx mo po so =
  bincountw_core_calc (fun a b => wrap int64 (a + b)) (Z.of_nat (length x)) mlen mx px sx mw pw sw mo po so.
Proof. exact bincount_as_w. Qed.
Print Assumptions C13_bincountw_ones.

(** false for uint64: a value >= 2^63 is not ignored but accessed out of bounds *)
Theorem C13_bincount_uint64_refuted :
  exists (x out : list Z), (forall k, In k x -> fits false 64 k) /\
    view (mem_of 0 8 x) 0 8 x /\ view (mem_of 0 8 out) 0 8 out /\ writable (mem_of 0 8 out) 0 8 (length out) /\
    bincount_core_calc 8 8 (Z.of_nat (length x)) (Z.of_nat (length out)) (mem_of 0 8 x) 0 8 (mem_of 0 8 out) 0 8 = None.
Proof. exact bincount_uint64_refuted. Qed.
Print Assumptions C13_bincount_uint64_refuted.

Example C13_ex :
  (* x = [2; 0; 9; -1; 2] read backwards, out = [10; 20; 30] with stride 16 *)
  match bincount_core_calc 4 8 5 3 (mem_of 0 4 [2; -1; 9; 0; 2]) 16 (-4) (mem_of 0 16 [10; 20; 30]) 0 16 with
  | Some mo => map mo [0; 16; 32; 48]
  | None => []
  end = [Some 11; Some 20; Some 32; None].
Proof. vm_compute. reflexivity. Qed.

(** ** C14 default m *)
Theorem C14_default_m :
  forall t x mx, 1 <= iwid t -> is_max x mx -> fits (isgn t) (iwid t) mx -> fits (isgn t) (iwid t) (mx + 1) ->
  bincount_default_m t x = Some (Z.max (mx + 1) 0).
Proof. exact bincount_default_m_ok. Qed.
Print Assumptions C14_default_m.

Theorem C14_all_counted_partial :
  (* missing: the case where max(x) is the largest value of its dtype, which is
     false, see C14_default_m_refuted; and uint64 values >= 2^63 (out of memory) *)
  forall t x mx, 1 <= iwid t <= 64 -> is_max x mx -> (forall k, In k x -> fits (isgn t) (iwid t) k) ->
  fits (isgn t) (iwid t) (mx + 1) -> -2 ^ 63 <= mx < 2 ^ 63 -> Z.of_nat (length x) < 2 ^ 63 ->
  exists mo, bincount_call t x = Some (Some (mo, Z.max (mx + 1) 0)) /\
    forall k c, In k x -> 0 <= k -> occ (fun y => y = k) x c -> mo (k * 8) = Some c.
Proof. exact bincount_call_counts. Qed.
Print Assumptions C14_all_counted_partial.

Theorem C14_default_m_refuted :
  exists x, (forall k, In k x -> fits true 8 k) /\ In 127 x /\
    exists mo, bincount_call int8 x = Some (Some (mo, 0)).
Proof. exact bincount_default_m_refuted. Qed.
Print Assumptions C14_default_m_refuted.

Theorem C14_dtype_max_always_lost :
  forall t x, 1 <= iwid t -> is_max x (imax t) -> bincount_default_m t x = Some 0.
Proof. exact bincount_default_m_always_lost. Qed.
Print Assumptions C14_dtype_max_always_lost.

Example C14_ranges :
  map (fun t => (imin t, imax t)) [int8; int16; int32; int64; uint8; uint16; uint32; uint64]
  = [(-128, 127); (-32768, 32767); (-2147483648, 2147483647); (-9223372036854775808, 9223372036854775807);
     (0, 255); (0, 65535); (0, 4294967295); (0, 18446744073709551615)].
Proof. reflexivity. Qed.
Example C14_ex : bincount_default_m int8 [3; 7; -2] = Some 8 /\ bincount_default_m int8 [-3; -5] = Some 0 /\
  bincount_default_m uint8 [255; 1] = Some 0.
Proof. vm_compute. auto. Qed.
Example C14_ex_premises : is_max [3; 7; -2] 7 /\ fits true 8 (7 + 1).
Proof. split; [split; [right; left; reflexivity|intros x [<-|[<-|[<-|[]]]]; lia]|unfold fits; cbn; lia]. Qed.

(** ** C15 convert_to_base *)
Theorem C15_convert_to_base_nonneg :
  forall t n k base mo po so,
  1 <= iwid t -> fits (isgn t) (iwid t) k -> fits (isgn t) (iwid t) base -> 0 <= k -> 2 <= base ->
  writable mo po so n ->
  exists mo' d, convert_to_base_core_calc t (Z.of_nat n) k base mo po so = Some mo' /\
    wrote mo mo' po so d /\ length d = n /\
    (forall x, In x d -> 0 <= x < base) /\
    digits_value base d = k mod base ^ Z.of_nat n /\
    (k < base ^ Z.of_nat n -> digits_value base d = k).
Proof. exact convert_to_base_nonneg. Qed.
Print Assumptions C15_convert_to_base_nonneg.

Theorem C15_convert_to_base_any_sign :
  forall t n k base mo po so,
  1 <= iwid t -> fits (isgn t) (iwid t) k -> fits (isgn t) (iwid t) base -> base <> 0 ->
  ~ (isgn t = true /\ k = - 2 ^ (iwid t - 1) /\ base = -1) ->
  writable mo po so n ->
  exists mo' d, convert_to_base_core_calc t (Z.of_nat n) k base mo po so = Some mo' /\
    wrote mo mo' po so d /\ length d = n /\
    digits_value base d = Z.rem k (base ^ Z.of_nat n) /\
    (forall x, In x d -> Z.abs x < Z.abs base /\ (0 <= k -> 0 <= base -> 0 <= x) /\ (k <= 0 -> 0 <= base -> x <= 0)).
Proof. exact convert_to_base_correct. Qed.
Print Assumptions C15_convert_to_base_any_sign.

(** base 0 divides by zero (undefined) as soon as one digit is asked for *)
Theorem C15_convert_to_base_zero_undefined :
  forall t n k mo po so, (0 < n)%nat -> convert_to_base_core_calc t (Z.of_nat n) k 0 mo po so = None.
Proof. exact convert_to_base_zero. Qed.
Print Assumptions C15_convert_to_base_zero_undefined.

Example C15_ex :
  match convert_to_base_core_calc int64 4 1249 8 (mem_of 0 8 [7; 7; 7; 7]) 24 (-8) with
  | Some mo => map mo [24; 16; 8; 0]
  | None => []
  end = [Some 1; Some 4; Some 3; Some 2] /\ digits_value 8 [1; 4; 3; 2] = 1249 /\
  convert_to_base_core_calc int32 1 (-2147483648) (-1) (mem_of 0 4 [0]) 0 4 = None.
Proof. vm_compute. auto. Qed.

(** ** C16 one_hot *)
Theorem C16_one_hot_correct :
  forall n x mo po so, writable mo po so n ->
  exists mo', one_hot_core_calc (Z.of_nat n) x mo po so = Some mo' /\
    (forall i, (i < n)%nat -> mo' (po + Z.of_nat i * so) = Some (if Z.of_nat i =? x then 1 else 0)) /\
    (forall a, outside po so n a -> mo' a = mo a).
Proof. exact one_hot_correct. Qed.
Print Assumptions C16_one_hot_correct.

Example C16_ex :
  match one_hot_core_calc 4 2 (mem_of 0 8 [9; 9; 9; 9; 9; 9; 9]) 0 16 with
  | Some mo => map mo [0; 8; 16; 24; 32; 40; 48]
  | None => []
  end = [Some 0; Some 9; Some 0; Some 9; Some 1; Some 9; Some 0].
Proof. vm_compute. reflexivity. Qed.

(** ** C47 issnan *)
Theorem C47_issnan_half :
  forall v, issnanh v = true <->
    exponent_field 10 5 v = 2 ^ 5 - 1 /\ quiet_bit 10 v = 0 /\ payload_field 10 v <> 0.
Proof. exact issnanh_correct. Qed.
Print Assumptions C47_issnan_half.
Theorem C47_issnan_float :
  forall v, issnanf v = true <->
    exponent_field 23 8 v = 2 ^ 8 - 1 /\ quiet_bit 23 v = 0 /\ payload_field 23 v <> 0.
Proof. exact issnanf_correct. Qed.
Print Assumptions C47_issnan_float.
Theorem C47_issnan_double :
  forall v, issnan v = true <->
    exponent_field 52 11 v = 2 ^ 11 - 1 /\ quiet_bit 52 v = 0 /\ payload_field 52 v <> 0.
Proof. exact issnan_correct. Qed.
Print Assumptions C47_issnan_double.

(** against Flocq's decoding of binary64 and binary32: true exactly for NaNs whose
    fraction has its most significant bit clear, hence false for quiet NaNs,
    infinities, zeros, subnormal and normal numbers *)
Theorem C47_issnan_double_ieee :
  forall v, issnan v = true <->
    exists s pl, B2FF 53 1024 (b64_of_bits v) = F754_nan s pl /\ Zpos pl < 2 ^ 51.
Proof. exact issnan_flocq64. Qed.
Print Assumptions C47_issnan_double_ieee.
Theorem C47_issnan_float_ieee :
  forall v, issnanf v = true <->
    exists s pl, B2FF 24 128 (b32_of_bits v) = F754_nan s pl /\ Zpos pl < 2 ^ 22.
Proof. exact issnan_flocq32. Qed.
Print Assumptions C47_issnan_float_ieee.

Example C47_ex :
  issnan 0x7FF0000000000001 = true /\ issnan 0xFFF4000000000000 = true /\ issnan 0x7FF8000000000000 = false /\
  issnan 0x7FF0000000000000 = false /\ issnan 0x3FF0000000000001 = false /\ issnanh 0x7C01 = true /\ issnanh 0x7E01 = false.
Proof. vm_compute. repeat split; reflexivity. Qed.
