(** The table of src/debye1/debye1_generated.c, cell by cell: the check of P_Debye.v run by the kernel on all 120 cells. *)
From Coq Require Import Reals ZArith List Bool Lia Lra.
From Verif Require Import CSem Num M_Special S_Special P_LogFact P_Expint P_Debye.
Import ListNotations.
Local Open Scope R_scope.

Definition obind (o : option Z) (f : Z -> option Z) : option Z := match o with Some z => f z | None => None end.
Definition chain0 : option Z := cell0_check (hd [] debye1_cells_0).
Definition chain1 (i : Z) : option Z := cells_check 3 1 false (tl debye1_cells_0) i.
Definition chain2 (i : Z) : option Z := cells_check 101 1 true debye1_cells_1 i.
Definition chain3 (i : Z) : option Z := cells_check 205 5 true debye1_cells_2 i.
Definition chain4 (i : Z) : option Z := cells_check 305 5 true debye1_cells_3 i.
Definition last_ok (i : Z) : bool := (Z.abs (i * 10 ^ 16 - 16449340668482264 * SI) <=? 2 * SI)%Z.
Definition opt_ok (o : option Z) : bool := match o with Some i => last_ok i | None => false end.
Definition chain_ok : bool := opt_ok (obind (obind (obind (obind chain0 chain1) chain2) chain3) chain4).
Lemma chain_true : chain_ok = true.
Proof. vm_cast_no_check (eq_refl true). Time Qed.
