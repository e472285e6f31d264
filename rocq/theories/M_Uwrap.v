(** * M_Uwrap: the wrapper generator's line folding and parameter checks (tools/uwrap/uwrap.py) *)
From Coq Require Import ZArith String List Bool Ascii.
From Verif Require Import M_Gen.
Import ListNotations.
Open Scope Z_scope.

Definition slen (s : str) : Z := Z.of_nat (length s).

(** Python's [', '.join(parts)] *)
Fixpoint join_comma (parts : list str) : str :=
  match parts with
  | [] => []
  | [p] => p
  | p :: ps => p ++ S_ ", " ++ join_comma ps
  end.
(** Python's [' ' * k] *)
Definition spaces (k : Z) : str := repeat " "%char (Z.to_nat k).

(** tools/uwrap/uwrap.py:86-90, the inner loop:
<<
        k = 0; n = 0
        while k != len(parts) and n + pad + len(parts[k]) + 2 < 80:
            n += len(parts[k]) + 2
            k += 1
>> *)
Fixpoint fill (pad n : Z) (parts : list str) : nat :=
  match parts with
  | [] => O
  | p :: ps => if n + pad + slen p + 2 <? 80 then S (fill pad (n + (slen p + 2)) ps) else O
  end.

(** tools/uwrap/uwrap.py:85-97, the outer loop; [None] means that [fuel] iterations
    were not enough. *)
Fixpoint to_lines_loop (fuel : nat) (pad offset : Z) (parts : list str) : option (list str) :=
  match parts with
  | [] => Some []
  | _ :: _ =>
      match fuel with
      | O => None
      | S f =>
          let k := fill pad 0 parts in
          let final := if Nat.eqb k (length parts) then [] else S_ "," in
          let line := spaces pad ++ join_comma (firstn k parts) ++ final in
          match to_lines_loop f offset offset (skipn k parts) with
          | Some lines => Some (line :: lines)
          | None => None
          end
      end
  end.

(** tools/uwrap/uwrap.py:81-99  [to_lines] *)
Definition to_lines (fuel : nat) (line : str) (offset : Z) : option (list str) :=
  to_lines_loop fuel 0 offset (split_on (S_ ", ") line).

(** ** tools/uwrap/uwrap.py:52-78  [check_params]

    A parameter is a string or a pair (name, default); the default's value is kept
    as text.  [None] is the ValueError. *)
Inductive param := Plain (name : string) | WithDefault (name value : string).
Definition pname (p : param) : string := match p with Plain n => n | WithDefault n _ => n end.

(** [f'out{k}']: NumPy allows at most 32 operands, so k has one or two digits *)
Definition digit_ (k : nat) : string := String (ascii_of_nat (48 + k)) EmptyString.
Definition out_name (k : nat) : string :=
  ("out" ++ (if (k <? 10)%nat then digit_ k else digit_ (k / 10) ++ digit_ (k mod 10)))%string.
Definition all_ufunc_params (nout : nat) : list string :=
  ["out"; "casting"; "order"; "dtype"; "subok"; "signature"; "extobj"; "where"; "axis"; "axes"; "keepdims"]%string
  ++ (if (1 <? nout)%nat then map out_name (seq 1 nout) else []).

Fixpoint check_params_loop (reserved : list string) (params : list param)
         (args : list string) (kwargs : list (string * string)) : option (list string * list (string * string)) :=
  match params with
  | [] => Some (args, kwargs)
  | p :: ps =>
      let cont a k :=
        if existsb (String.eqb (pname p)) reserved then None else check_params_loop reserved ps a k in
      match p with
      | Plain n => match kwargs with [] => cont (args ++ [n]) kwargs | _ :: _ => None end
      | WithDefault n v => cont args (kwargs ++ [(n, v)])
      end
  end.
Definition check_params (nout : nat) (params : list param) :=
  check_params_loop (all_ufunc_params nout) params [] [].
