(** Property theorems C52: the Python wrappers' axis handling, output shapes and errors. *)
From Coq Require Import ZArith List Bool Lia.
From Flocq Require Import BinarySingleNaN.
From Verif Require Import CSem Num NumP M_Select S_Select M_Int S_Int M_Elem S_Elem M_Wrap S_Wrap P_Wrap.
Import ListNotations.
Open Scope Z_scope.

(** ** accepted calls: shape of the result and every element of it *)
Theorem C52_one_hot :
  forall t k n out axis junk s1 s2,
  shp k = s1 ++ s2 -> valid_shape (shp k) -> 0 <= n -> axis_pos (Z.of_nat (length (shp k)) + 1) axis (length s1) ->
  out_ok out (s1 ++ n :: s2) ->
  exists r, one_hot (DInt t) k (PInt n) out axis junk = Ok r /\ shp r = s1 ++ n :: s2 /\
    forall i1 j i2, in_shape i1 s1 -> in_shape i2 s2 -> 0 <= j < n ->
      elt r (i1 ++ j :: i2) = Some (if j =? elt k (i1 ++ i2) then 1 else 0).
Proof. exact @one_hot_wrapper_ok. Qed.
Print Assumptions C52_one_hot.

Theorem C52_convert_to_base :
  forall t k base n out axis junk s1 s2,
  broadcast (shp k) (shp base) (s1 ++ s2) -> valid_shape (s1 ++ s2) -> 0 <= n ->
  axis_pos (Z.of_nat (length (s1 ++ s2)) + 1) axis (length s1) -> out_ok out (s1 ++ n :: s2) -> 1 <= iwid t ->
  (forall i, in_shape i (shp k) -> fits (isgn t) (iwid t) (elt k i) /\ 0 <= elt k i) ->
  (forall i, in_shape i (shp base) -> fits (isgn t) (iwid t) (elt base i) /\ 2 <= elt base i) ->
  exists r, convert_to_base t k base (PInt n) out axis junk = Ok r /\ shp r = s1 ++ n :: s2 /\
    forall i1 i2 ik ib, in_shape i1 s1 -> in_shape i2 s2 ->
      designates (shp k) (i1 ++ i2) ik -> designates (shp base) (i1 ++ i2) ib ->
      exists d, digits_value (elt base ib) d = elt k ik mod elt base ib ^ n /\
        (forall x, In x d -> 0 <= x < elt base ib) /\ Z.of_nat (length d) = n /\
        forall j, 0 <= j < n -> elt r (i1 ++ j :: i2) = nth_error d (Z.to_nat j).
Proof. exact @convert_to_base_wrapper_ok. Qed.
Print Assumptions C52_convert_to_base.

Theorem C52_nextn_greater :
  forall {prec emax : Z} {Hp : FLX.Prec_gt_0 prec} {He : Prec_lt_emax prec emax} dx (x : ndarray (binary_float prec emax)) n out axis junk s1 s2,
  floating_dtype dx ->
  shp x = s1 ++ s2 -> valid_shape (shp x) -> 0 <= n -> axis_pos (Z.of_nat (length (shp x)) + 1) axis (length s1) ->
  out_ok out (s1 ++ n :: s2) ->
  exists r, nextn_greater prec emax dx x (PInt n) out axis junk = Ok r /\ shp r = s1 ++ n :: s2 /\
    forall i1 i2, in_shape i1 s1 -> in_shape i2 s2 ->
      exists ys, run_up (elt x (i1 ++ i2)) ys /\ Z.of_nat (length ys) = n /\
        forall j, 0 <= j < n -> elt r (i1 ++ j :: i2) = nth_error ys (Z.to_nat j).
Proof. exact @nextn_greater_wrapper_ok. Qed.
Print Assumptions C52_nextn_greater.

Theorem C52_nextn_less :
  forall {prec emax : Z} {Hp : FLX.Prec_gt_0 prec} {He : Prec_lt_emax prec emax} dx (x : ndarray (binary_float prec emax)) n out axis junk s1 s2,
  floating_dtype dx ->
  shp x = s1 ++ s2 -> valid_shape (shp x) -> 0 <= n -> axis_pos (Z.of_nat (length (shp x)) + 1) axis (length s1) ->
  out_ok out (s1 ++ n :: s2) ->
  exists r, nextn_less prec emax dx x (PInt n) out axis junk = Ok r /\ shp r = s1 ++ n :: s2 /\
    forall i1 i2, in_shape i1 s1 -> in_shape i2 s2 ->
      exists ys, run_down (elt x (i1 ++ i2)) ys /\ Z.of_nat (length ys) = n /\
        forall j, 0 <= j < n -> elt r (i1 ++ j :: i2) = nth_error ys (Z.to_nat j).
Proof. exact @nextn_less_wrapper_ok. Qed.
Print Assumptions C52_nextn_less.

Theorem C52_bincount :
  forall t x m m' out axis s1 n s2,
  effective_m t x m' m ->
  shp x = s1 ++ n :: s2 -> valid_shape (shp x) -> axis_pos (Z.of_nat (length (shp x))) axis (length s1) ->
  out_ok out (s1 ++ m :: s2) ->
  (forall i, in_shape i (shp x) -> - 2 ^ 63 <= elt x i < 2 ^ 63) -> n < 2 ^ 63 ->
  (forall o i, out = Some o -> in_shape i (shp o) -> 0 <= elt o i < 2 ^ 63 - n) ->
  exists r, bincount (DInt t) x m' out axis = Ok r /\ shp r = s1 ++ m :: s2 /\
    forall i1 j i2 c, in_shape i1 s1 -> in_shape i2 s2 -> 0 <= j < m ->
      occ (fun v => v = j) (map (fun t => elt x (i1 ++ t :: i2)) (range n)) c ->
      elt r (i1 ++ j :: i2) =
        Some (match out with Some o => elt o (i1 ++ j :: i2) | None => 0 end + c).
Proof. exact @bincount_wrapper_ok. Qed.
Print Assumptions C52_bincount.

Theorem C52_bincount_weights :
  forall {W} (add : W -> W -> W) zero t x (w : ndarray W) m m' out axis x1 n x2 w1 w2 s1 s2,
  effective_m t x m' m ->
  shp x = x1 ++ n :: x2 -> shp w = w1 ++ n :: w2 -> 0 <= n ->
  axis_pos (Z.of_nat (length (shp x))) axis (length x1) ->
  axis_pos (Z.of_nat (length (shp w))) axis (length w1) ->
  broadcast (x1 ++ x2) (w1 ++ w2) (s1 ++ s2) -> valid_shape (s1 ++ s2) ->
  axis_pos (Z.of_nat (length (s1 ++ s2)) + 1) axis (length s1) ->
  out_ok out (s1 ++ m :: s2) ->
  (forall i, in_shape i (shp x) -> - 2 ^ 63 <= elt x i < 2 ^ 63) ->
  exists r, bincount_weights add zero (DInt t) x m' w out axis = Ok r /\ shp r = s1 ++ m :: s2 /\
    forall i1 j i2 jx1 jx2 jw1 jw2, in_shape i1 s1 -> in_shape i2 s2 -> 0 <= j < m ->
      designates (x1 ++ x2) (i1 ++ i2) (jx1 ++ jx2) -> length jx1 = length x1 ->
      designates (w1 ++ w2) (i1 ++ i2) (jw1 ++ jw2) -> length jw1 = length w1 ->
      elt r (i1 ++ j :: i2) =
        Some (fold_left add (weights_of j (map (fun t => elt x (jx1 ++ t :: jx2)) (range n))
                                          (map (fun t => elt w (jw1 ++ t :: jw2)) (range n)))
                        (match out with Some o => elt o (i1 ++ j :: i2) | None => zero end)).
Proof. exact @bincount_weights_ok. Qed.
Print Assumptions C52_bincount_weights.

(** an array of shape (2, 3), the new axis in the middle, given from the end *)
Example C52_example :
  let k := mkA [2; 3] (fun i => match i with [a; b] => 3 * a + b | _ => 0 end) in
  let base := mkA [3] (fun i => match i with [b] => b + 2 | _ => 2 end) in
  shp k = [2] ++ [3] /\ valid_shape (shp k) /\ axis_pos (Z.of_nat (length (shp k)) + 1) (-2) 1 /\
  broadcast (shp k) (shp base) ([2] ++ [3]) /\
  (forall i, in_shape i (shp base) -> fits true 64 (elt base i) /\ 2 <= elt base i) /\
  (exists r, one_hot (DInt int64) k (PInt 4) None (-2) (fun _ => 99) = Ok r /\ shp r = [2; 4; 3] /\
     elt r [1; 3; 0] = Some 1 /\ elt r [1; 2; 0] = Some 0 /\ elt r [1; 0; 2] = Some 0) /\
  (exists r, convert_to_base int64 k base (PInt 3) None (-2) (fun _ => 99) = Ok r /\ shp r = [2; 3; 3] /\
     map (fun j => elt r [1; j; 2]) [0; 1; 2] = [Some 1; Some 1; Some 0] /\
     map (fun j => elt r [1; j; 0]) [0; 1; 2] = [Some 1; Some 1; Some 0]) /\
  (exists r, bincount (DInt int64) k (Some (PInt 5)) None 0 = Ok r /\ shp r = [5; 3] /\
     map (fun j => elt r [j; 1]) [0; 1; 2; 3; 4] = [Some 0; Some 1; Some 0; Some 0; Some 1]) /\
  effective_m int64 k None 6.
Proof.
  cbv zeta. split; [reflexivity|]. split; [repeat constructor; lia|]. split; [right; cbn; lia|].
  split. { exact (bc_snoc [2] [] [2] 3 3 3 (bc_nil_r [2]) (bc_same 3)). }
  split. { intros i Hi. cbn in Hi. inversion Hi as [|x ? l ? Hx Hl]; subst. inversion Hl; subst. cbn [elt]. unfold fits. change (2 ^ (64 - 1)) with 9223372036854775808. lia. }
  split. { eexists. split; [reflexivity|]. repeat split; vm_compute; reflexivity. }
  split. { eexists. split; [reflexivity|]. repeat split; vm_compute; reflexivity. }
  split. { eexists. split; [reflexivity|]. repeat split; vm_compute; reflexivity. }
  apply (em_default int64 _ 5); [cbn; lia| | |vm_compute; split; congruence|vm_compute; split; congruence].
  - exists [1; 2]. split; [repeat constructor; lia|reflexivity].
  - intros i Hi. inversion Hi as [|x ? l ? Hx Hl]; subst. inversion Hl as [|y ? l' ? Hy Hl']; subst. inversion Hl'; subst. cbn [elt]. lia.
Qed.

(** weights of shape (3,) against x of shape (2, 3) *)
Example C52_weights_example :
  let x := mkA [2; 3] (fun i => match i with [a; b] => (a + b) mod 2 | _ => 0 end) in
  let w := mkA [3] (fun i => match i with [b] => 10 ^ b | _ => 0 end) in
  axis_pos (len (shp x)) (-1) 1 /\ axis_pos (len (shp w)) (-1) 0 /\ broadcast ([2] ++ []) ([] ++ []) ([2] ++ []) /\
  exists r, bincount_weights Z.add 0 (DInt int64) x None w None (-1) = Ok r /\ shp r = [2; 2] /\
    map (elt r) [[0; 0]; [0; 1]; [1; 0]; [1; 1]] = [Some 101; Some 10; Some 10; Some 101].
Proof.
  cbv zeta. split; [right; cbn; lia|]. split; [right; cbn; lia|]. split; [apply (bc_nil_r [2])|].
  eexists. split; [reflexivity|]. split; vm_compute; reflexivity.
Qed.

(** ** rejected calls *)
Theorem C52_axis_errors :
  forall {prec emax : Z} {Hp : FLX.Prec_gt_0 prec} {He : Prec_lt_emax prec emax} (t : ity) (k base : ndarray Z) (x : ndarray (binary_float prec emax)) (s : shape) (dx : dtype) (_ : broadcast (shp k) (shp base) s) (_ : floating_dtype dx) n axis junk junkf,
  0 <= n ->
     (valid_shape s -> axis_out_of_bounds (len s + 1) axis ->
        convert_to_base t k base (PInt n) None axis junk = Raise AxisError) /\
     (valid_shape (shp k) -> axis_out_of_bounds (len (shp k) + 1) axis ->
        one_hot (DInt t) k (PInt n) None axis junk = Raise AxisError) /\
     (valid_shape (shp x) -> axis_out_of_bounds (len (shp x) + 1) axis ->
        nextn_greater prec emax dx x (PInt n) None axis junkf = Raise AxisError /\
        nextn_less prec emax dx x (PInt n) None axis junkf = Raise AxisError).
Proof. exact (fun prec emax Hp He t k base x s dx Hb Hd => @axis_errors prec emax Hp He t k base x s dx Hb Hd). Qed.
Print Assumptions C52_axis_errors.

Theorem C52_axis_never_accepted :
  forall {prec emax : Z} {Hp : FLX.Prec_gt_0 prec} {He : Prec_lt_emax prec emax} (t : ity) (k base : ndarray Z) (x : ndarray (binary_float prec emax)) (s : shape) (dx : dtype) (_ : broadcast (shp k) (shp base) s) (_ : floating_dtype dx) n out outf axis junk junkf,
  (axis_out_of_bounds (len s + 1) axis -> exists e, convert_to_base t k base n out axis junk = Raise e) /\
  (axis_out_of_bounds (len (shp k) + 1) axis -> exists e, one_hot (DInt t) k n out axis junk = Raise e) /\
  (axis_out_of_bounds (len (shp x) + 1) axis ->
     (exists e, nextn_greater prec emax dx x n outf axis junkf = Raise e) /\
     (exists e, nextn_less prec emax dx x n outf axis junkf = Raise e)).
Proof. exact (fun prec emax Hp He t k base x s dx Hb Hd => @axis_never_accepted prec emax Hp He t k base x s dx Hb Hd). Qed.
Print Assumptions C52_axis_never_accepted.

Theorem C52_out_shape_errors :
  forall {prec emax : Z} {Hp : FLX.Prec_gt_0 prec} {He : Prec_lt_emax prec emax} (t : ity) (k base : ndarray Z) (x : ndarray (binary_float prec emax)) (s : shape) (dx : dtype) (_ : broadcast (shp k) (shp base) s) (_ : floating_dtype dx) n o f axis junk junkf s1 s2,
  (s = s1 ++ s2 -> axis_pos (len s + 1) axis (length s1) -> shp o <> s1 ++ n :: s2 ->
     convert_to_base t k base (PInt n) (Some o) axis junk = Raise ValueError) /\
  (shp k = s1 ++ s2 -> axis_pos (len (shp k) + 1) axis (length s1) -> shp o <> s1 ++ n :: s2 ->
     one_hot (DInt t) k (PInt n) (Some o) axis junk = Raise ValueError) /\
  (shp x = s1 ++ s2 -> axis_pos (len (shp x) + 1) axis (length s1) -> shp f <> s1 ++ n :: s2 ->
     nextn_greater prec emax dx x (PInt n) (Some f) axis junkf = Raise ValueError /\
     nextn_less prec emax dx x (PInt n) (Some f) axis junkf = Raise ValueError).
Proof. exact (fun prec emax Hp He t k base x s dx Hb Hd => @out_shape_errors prec emax Hp He t k base x s dx Hb Hd). Qed.
Print Assumptions C52_out_shape_errors.

Theorem C52_negative_n_errors :
  forall {prec emax : Z} {Hp : FLX.Prec_gt_0 prec} {He : Prec_lt_emax prec emax} (t : ity) (k base : ndarray Z) (x : ndarray (binary_float prec emax)) (s : shape) (dx : dtype) (_ : broadcast (shp k) (shp base) s) (_ : floating_dtype dx) n axis junk junkf out outf,
  n < 0 ->
     (forall o, out = Some o -> valid_shape (shp o)) -> (forall o, outf = Some o -> valid_shape (shp o)) ->
     (~ axis_out_of_bounds (len s + 1) axis -> convert_to_base t k base (PInt n) out axis junk = Raise ValueError) /\
     (~ axis_out_of_bounds (len (shp k) + 1) axis -> one_hot (DInt t) k (PInt n) out axis junk = Raise ValueError) /\
     (~ axis_out_of_bounds (len (shp x) + 1) axis ->
        nextn_greater prec emax dx x (PInt n) outf axis junkf = Raise ValueError /\
        nextn_less prec emax dx x (PInt n) outf axis junkf = Raise ValueError).
Proof. exact (fun prec emax Hp He t k base x s dx Hb Hd => @negative_n_errors prec emax Hp He t k base x s dx Hb Hd). Qed.
Print Assumptions C52_negative_n_errors.

Theorem C52_argument_errors :
  forall {prec emax : Z} {Hp : FLX.Prec_gt_0 prec} {He : Prec_lt_emax prec emax} t k base (x : ndarray (binary_float prec emax)) n out outf axis junk junkf dk dx,
  (~ (exists t, dk = DInt t) -> one_hot dk k n out axis junk = Raise ValueError /\
     (forall m, bincount dk k m out axis = Raise ValueError)) /\
  (~ floating_dtype dx -> nextn_greater prec emax dx x n outf axis junkf = Raise ValueError /\
                             nextn_less prec emax dx x n outf axis junkf = Raise ValueError) /\
  one_hot dk k PBad out axis junk = Raise ValueError /\
  convert_to_base t k base PBad out axis junk = Raise ValueError /\
  bincount dk k (Some PBad) out axis = Raise ValueError /\
  nextn_greater prec emax dx x PBad outf axis junkf = Raise ValueError /\
  nextn_less prec emax dx x PBad outf axis junkf = Raise ValueError /\
  ((forall c, ~ broadcast (shp k) (shp base) c) -> convert_to_base t k base n out axis junk = Raise ValueError).
Proof. exact @argument_errors. Qed.
Print Assumptions C52_argument_errors.

Theorem C52_bincount_errors :
  forall t x axis out m,
  (m < 0 -> bincount (DInt t) x (Some (PInt m)) out axis = Raise ValueError) /\
  (0 <= m -> axis_out_of_bounds (len (shp x)) axis ->
     bincount (DInt t) x (Some (PInt m)) out axis = Raise AxisError) /\
  (forall s1 n s2 o, 0 <= m -> shp x = s1 ++ n :: s2 -> axis_pos (len (shp x)) axis (length s1) ->
     shp o <> s1 ++ m :: s2 -> bincount (DInt t) x (Some (PInt m)) (Some o) axis = Raise ValueError) /\
  (In 0 (shp x) -> bincount (DInt t) x None out axis = Raise ValueError).
Proof. exact @bincount_errors. Qed.
Print Assumptions C52_bincount_errors.

Theorem C52_bincount_weights_errors :
  forall {W} (add : W -> W -> W) zero t x (w : ndarray W) axis out m,
  (m < 0 -> bincount_weights add zero (DInt t) x (Some (PInt m)) w out axis = Raise ValueError) /\
  (0 <= m -> axis_out_of_bounds (len (shp x)) axis \/ axis_out_of_bounds (len (shp w)) axis ->
     bincount_weights add zero (DInt t) x (Some (PInt m)) w out axis = Raise AxisError) /\
  (forall x1 n x2 w1 n' w2, 0 <= m -> shp x = x1 ++ n :: x2 -> shp w = w1 ++ n' :: w2 ->
     axis_pos (len (shp x)) axis (length x1) -> axis_pos (len (shp w)) axis (length w1) ->
     ((forall c, ~ broadcast (x1 ++ x2) (w1 ++ w2) c) ->
        bincount_weights add zero (DInt t) x (Some (PInt m)) w out axis = Raise ValueError) /\
     (forall s1 s2 o, broadcast (x1 ++ x2) (w1 ++ w2) (s1 ++ s2) -> axis_pos (len (s1 ++ s2) + 1) axis (length s1) ->
        shp o <> s1 ++ m :: s2 ->
        bincount_weights add zero (DInt t) x (Some (PInt m)) w (Some o) axis = Raise ValueError) /\
     (forall s1 s2, n <> n' -> broadcast (x1 ++ x2) (w1 ++ w2) (s1 ++ s2) -> axis_pos (len (s1 ++ s2) + 1) axis (length s1) ->
        valid_shape (s1 ++ s2) -> out_ok out (s1 ++ m :: s2) ->
        bincount_weights add zero (DInt t) x (Some (PInt m)) w out axis = Raise ValueError)).
Proof. exact @bincount_weights_errors. Qed.
Print Assumptions C52_bincount_weights_errors.

(** the wrappers test [axis > ndim + 1] where they mean [axis > ndim]: with an [out] that does not
    have the shape of the (meaningless) insertion, the axis is reported as a shape error *)
Theorem C52_axis_error_refuted :
  exists (k o : ndarray Z) n axis, 0 <= n /\ valid_shape (shp k) /\ valid_shape (shp o) /\
    axis_out_of_bounds (len (shp k) + 1) axis /\
    one_hot (DInt int64) k (PInt n) (Some o) axis (fun _ => 0) = Raise ValueError.
Proof. exact @axis_error_refuted. Qed.
Print Assumptions C52_axis_error_refuted.

Example C52_errors_example :
  let k := mkA [2; 3] (fun i => match i with [a; b] => 3 * a + b | _ => 0 end) in
  axis_out_of_bounds (len (shp k) + 1) 3 /\ axis_out_of_bounds (len (shp k) + 1) (-4) /\
  one_hot (DInt int64) k (PInt 4) None 3 (fun _ => 99) = Raise AxisError /\
  one_hot (DInt int64) k (PInt 4) None (-4) (fun _ => 99) = Raise AxisError /\
  one_hot (DInt int64) k (PInt (-1)) None 0 (fun _ => 99) = Raise ValueError /\
  one_hot (DInt int64) k (PInt 4) (Some (mkA [2; 3; 4] (fun _ => 0))) 0 (fun _ => 99) = Raise ValueError /\
  bincount (DInt int64) k (Some (PInt (-1))) None 0 = Raise ValueError /\
  bincount (DInt int64) k (Some (PInt 2)) None 2 = Raise AxisError /\
  (forall c, ~ broadcast [2] [3] c).
Proof.
  cbv zeta. split; [right; cbn; lia|]. split; [left; cbn; lia|].
  split; [reflexivity|]. split; [reflexivity|]. split; [reflexivity|]. split; [reflexivity|].
  split; [reflexivity|]. split; [reflexivity|].
  intros c H. inversion H as [| |a b c' x y z Hb Hd E1 E2 E3].
  apply (app_inj_tail _ [] x 2) in E1. apply (app_inj_tail _ [] y 3) in E2. destruct E1 as [_ ->], E2 as [_ ->]. inversion Hd.
Qed.
