(** * S_GenNames: the variable names of a generated loop *)
From Coq Require Import ZArith Bool Ascii String List.
From Verif Require Import CSem M_Gen S_Gen.
Import ListNotations.
Open Scope Z_scope.

(** a positive number in decimal without leading zeros *)
Definition positive_text (n : nat) (d : str) : Prop := numeral d (Z.of_nat n) /\ hd_error d <> nth_error decimals 0.
(** names of n outputs: out, or out1, out2, ... *)
Definition out_names (n : nat) (l : list str) : Prop :=
  (n = 1%nat /\ l = [S_ "out"]) \/
  ((1 < n)%nat /\ length l = n /\ forall k, (k < n)%nat -> exists d, nth_error l k = Some (S_ "out" ++ d) /\ positive_text (S k) d).
(** a docstring whose first line shows the call NAME(P1, P2, ..., /REST *)
Definition newline : ascii := ascii_of_nat 10.
Inductive shows_call (name : str) (params : list str) : str -> Prop :=
| shows_one rest : ~ In newline rest -> shows_call name params (name ++ S_ "(" ++ join (S_ ", ") params ++ S_ ", /" ++ rest)
| shows_more rest tail : ~ In newline rest -> shows_call name params (name ++ S_ "(" ++ join (S_ ", ") params ++ S_ ", /" ++ rest ++ newline :: tail).
