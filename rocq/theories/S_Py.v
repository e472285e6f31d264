(** * S_Py: what users rely on in lazy loading and in the wrapper generator *)
From Coq Require Import ZArith String List Ascii.
From Verif Require Import M_Gen M_Init M_Uwrap.
Import ListNotations.

(** ** lazy loading *)
Definition submodule (m : string) : Prop := exists defs imps, In (m, defs, imps) package.
Definition defines (m n : string) : Prop := exists defs imps, In (m, defs, imps) package /\ In n defs.

(** the documented names that are bound when the package is imported *)
Definition bound_at_import (n : string) : Prop := exists v, assoc n initial = Some v.

(** code point order of Python strings, strict *)
Definition before (a b : string) : Prop :=
  (exists s, s <> EmptyString /\ b = (a ++ s)%string) \/
  (exists p c d s t, a = (p ++ String c s)%string /\ b = (p ++ String d t)%string /\ (nat_of_ascii c < nat_of_ascii d)%nat).

(** ** folding lines: undoing the fold gives the line back *)
Open Scope Z_scope.
Definition unfold_lines (offset : Z) (lines : list str) : str :=
  match lines with
  | [] => []
  | l :: rest => (l ++ concat (map (fun l => " "%char :: skipn (Z.to_nat offset) l) rest))%list
  end.
Definition indented (offset : Z) (l : str) : Prop :=
  firstn (Z.to_nat offset) l = repeat " "%char (Z.to_nat offset).


(** ** parameters of a wrapper: plain names first, then names with defaults, none reserved *)
Definition plain (n : string) : param := Plain n.
Definition with_default (p : string * string) : param := WithDefault (fst p) (snd p).

(** the names NumPy's ufuncs use for keyword arguments, and out1, out2, ... when there are several outputs *)
Open Scope string_scope.
Definition digit_of (d : nat) : ascii := nth d ["0"; "1"; "2"; "3"; "4"; "5"; "6"; "7"; "8"; "9"]%char "?"%char.
Definition reserved (nout : nat) (n : string) : Prop :=
  In n ["out"; "casting"; "order"; "dtype"; "subok"; "signature"; "extobj"; "where"; "axis"; "axes"; "keepdims"] \/
  ((1 < nout)%nat /\ exists k, (1 <= k <= nout)%nat /\
    ((k < 10)%nat /\ n = "out" ++ String (digit_of k) "" \/
     (10 <= k)%nat /\ n = "out" ++ String (digit_of (k / 10)) (String (digit_of (k mod 10)) ""))).
