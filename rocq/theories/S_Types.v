(** * S_Types: what a choice of inner loop should guarantee *)
From Coq Require Import ZArith Reals Bool String List.
From Flocq Require Import Core.
From Verif Require Import M_Gen M_Types.
Import ListNotations.
Local Open Scope Z_scope.

(** The finite values of each data type, as a real and an imaginary part. *)
Definition float_value (prec emax : Z) (x : R) : Prop :=
  generic_format radix2 (FLT_exp (3 - emax - prec) prec) x /\ (Rabs x < bpow radix2 emax)%R.
Definition int_value (lo hi : Z) (x : R) : Prop := exists z, x = IZR z /\ lo <= z <= hi.

Definition value (t : dt) (re im : R) : Prop :=
  match t with
  | Tbool => (re = 0%R \/ re = 1%R) /\ im = 0%R
  | Ti8 => int_value (-128) 127 re /\ im = 0%R
  | Tu8 => int_value 0 255 re /\ im = 0%R
  | Ti16 => int_value (-32768) 32767 re /\ im = 0%R
  | Tu16 => int_value 0 65535 re /\ im = 0%R
  | Ti32 => int_value (-2147483648) 2147483647 re /\ im = 0%R
  | Tu32 => int_value 0 4294967295 re /\ im = 0%R
  | Ti64 | Tlonglong => int_value (-9223372036854775808) 9223372036854775807 re /\ im = 0%R
  | Tu64 | Tulonglong => int_value 0 18446744073709551615 re /\ im = 0%R
  | Thalf => float_value 11 16 re /\ im = 0%R
  | Tfloat => float_value 24 128 re /\ im = 0%R
  | Tdouble => float_value 53 1024 re /\ im = 0%R
  | Tlongdouble => float_value 64 16384 re /\ im = 0%R
  | Tcfloat => float_value 24 128 re /\ float_value 24 128 im
  | Tcdouble => float_value 53 1024 re /\ float_value 53 1024 im
  | Tclongdouble => float_value 64 16384 re /\ float_value 64 16384 im
  | Tobject => True
  end.

Definition int64 (t : dt) : Prop :=
  match t with Ti64 | Tu64 | Tlonglong | Tulonglong => True | _ => False end.
Definition real_dt (t : dt) : Prop :=
  match t with Tcfloat | Tcdouble | Tclongdouble | Tobject => False | _ => True end.
Definition complex_dt (t : dt) : Prop :=
  match t with Tcfloat | Tcdouble | Tclongdouble => True | _ => False end.

(** two types with the same values (long and long long) *)
Definition same_values (a b : dt) : Prop := forall x y, value a x y <-> value b x y.

(** A table that begins with one loop for each of float, double and long double, all of
    whose inputs have that type; loops that follow have a complex input. *)
Definition size_rank (t : dt) : Z :=
  match t with Tfloat => 1 | Tdouble => 2 | Tlongdouble => 3 | _ => 0 end.
Definition reals : list dt := [Tfloat; Tdouble; Tlongdouble].
Definition real_table (nin : nat) (out : dt -> list dt) (rest t : list row) : Prop :=
  t = map (fun c => (repeat c nin, out c)) reals ++ rest
  /\ (0 < nin)%nat
  /\ (forall c, In c reals -> ~ In Tobject (out c))
  /\ Forall (fun r => exists c, In c (fst r) /\ complex_dt c) rest.

(** the functions with a loop for every real floating type and only those *)
Definition real_functions : list str := map S_
  ["abs_squared"; "abssq"; "backlash"; "backlash_sum"; "deadzone"; "expint1"; "logexpint1"; "fillnan1d";
   "hypot3"; "hysteresis_relay"; "kbnsum"; "logistic"; "logistic_deriv"; "log_logistic"; "swish";
   "multivariate_logbeta"; "nan_to_num"; "next_greater"; "next_less"; "nextn_greater"; "nextn_less";
   "cdf"; "logcdf"; "sf"; "logsf"; "erfcx"; "pow1pm1"; "hyperbolic_ramp"; "exponential_ramp";
   "exponential"; "linear"; "spherical"; "parabolic"; "softmax"; "sosfilter"; "sosfilter_ic";
   "sosfilter_ic_contig"; "step"; "linearstep"; "smoothstep3"; "invsmoothstep3"; "smoothstep5";
   "trapezoid_pulse"; "tri_area"; "unwrap"; "vnorm"; "rms"; "vdot"; "yeo_johnson"; "inv_yeo_johnson";
   "gmean"; "hmean"; "gmeanw"; "hmeanw"; "pmean"; "pmeanw"]%string.

(** A hand-written module registers loop k for exactly the types that the k-th loop
    function reads and writes, and every array NumPy indexes is long enough. *)
Definition consistent (m : cmod) : Prop :=
  length (cm_loops m) = cm_ntypes m
  /\ length (cm_codes m) = (cm_ntypes m * (cm_nin m + cm_nout m))%nat
  /\ (cm_ntypes m <= cm_data m)%nat
  /\ forall k, (k < cm_ntypes m)%nat ->
       exists r, code_row m k = Some r /\ loop_row m k = Some r
                 /\ length (fst r) = cm_nin m /\ length (snd r) = cm_nout m.

(** bits an item occupies: the width of an integer; sign, biased exponent and trailing significand of the IEEE
    interchange formats; the 80-bit long double padded to 16 bytes; two reals for a complex number; a pointer *)
Definition interchange_bits (prec emax : Z) : Z := 1 + Z.log2 (2 * emax) + (prec - 1).
Definition item_bits (t : dt) : Z :=
  match t with
  | Tbool => 8
  | Thalf => interchange_bits 11 16
  | Tfloat => interchange_bits 24 128
  | Tdouble => interchange_bits 53 1024
  | Tlongdouble => 128
  | Tcfloat => 2 * interchange_bits 24 128
  | Tcdouble => 2 * interchange_bits 53 1024
  | Tclongdouble => 2 * 128
  | Tobject => 64
  | _ => match int_kind t with Some (_, w) => w | None => 0 end
  end.
