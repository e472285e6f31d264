(** * S_Gen: what a gufunc signature means, and NumPy's calling convention *)
From Coq Require Import ZArith Bool Ascii String List.
From Verif Require Import CSem M_Gen.
Import ListNotations.
Open Scope Z_scope.

(** ** gufunc signatures *)
Inductive dim := DName (s : str) | DNum (n : Z).
Record gsig := mkSig { ins : list (list dim); outs : list (list dim) }.
Definition operands (g : gsig) : list (list dim) := ins g ++ outs g.
Definition all_dims (g : gsig) : list dim := concat (operands g).

Definition letters : str := S_ "ABCDEFGHIJKLMNOPQRSTUVWXYZabcdefghijklmnopqrstuvwxyz_".
Definition decimals : str := S_ "0123456789".
(** [A-Za-z_][A-Za-z0-9_]* *)
Definition ident (s : str) : Prop :=
  match s with [] => False | c :: r => In c letters /\ Forall (fun c => In c letters \/ In c decimals) r end.
(** the decimal numeral s denotes n *)
Inductive numeral : str -> Z -> Prop :=
| num1 c k : nth_error decimals k = Some c -> numeral [c] (Z.of_nat k)
| numS s n c k : numeral s n -> nth_error decimals k = Some c -> numeral (s ++ [c]) (10 * n + Z.of_nat k).

(** the text of a dimension, of the parenthesised dimensions of an operand, of a signature *)
Inductive spells_dim : dim -> str -> Prop :=
| sp_name s : ident s -> spells_dim (DName s) s
| sp_num s n : numeral s n -> 1 <= n -> spells_dim (DNum n) s.
Fixpoint join (sep : str) (l : list str) : str :=
  match l with [] => [] | [s] => s | s :: r => s ++ sep ++ join sep r end.
Definition spells_op (ds : list dim) (t : str) : Prop :=
  exists l, Forall2 spells_dim ds l /\ t = S_ "(" ++ join (S_ ",") l ++ S_ ")".
(** [spells g t]: up to blanks, t is a signature with the meaning g; NumPy requires at least
    one output, the generator at least one input. *)
Definition spells (g : gsig) (t : str) : Prop :=
  ins g <> [] /\ outs g <> [] /\
  exists li lo, Forall2 spells_op (ins g) li /\ Forall2 spells_op (outs g) lo /\
    filter (fun c => negb (Ascii.eqb c (ascii_of_nat 32))) t = join (S_ ",") li ++ S_ "->" ++ join (S_ ",") lo.

(** ** NumPy's convention for the arguments of a gufunc inner loop *)
Definition dim_dec (a b : dim) : {a = b} + {a <> b}.
Proof. decide equality; [apply (list_eq_dec ascii_dec) | apply Z.eq_dec]. Defined.
(** the distinct elements, in the order of their first occurrence *)
Fixpoint distinct (l : list dim) : list dim :=
  match l with [] => [] | d :: r => d :: List.remove dim_dec d (distinct r) end.

(** an operand of a call: first slice, byte step between slices, byte strides within a slice *)
Record operand := mkOp { o_base : Z; o_step : Z; o_strides : list Z }.
Definition fits (ds : list dim) (o : operand) : Prop := length (o_strides o) = length ds.
Definition np_args (ops : list operand) : list Z := map o_base ops.
Definition np_dimensions (g : gsig) (N : Z) (size : dim -> Z) : list Z := N :: map size (distinct (all_dims g)).
Definition np_steps (ops : list operand) : list Z := map o_step ops ++ concat (map o_strides ops).

(** ** what the core function must be given for loop index j *)
Definition sizes_passed (g : gsig) (size : dim -> Z) : list cval :=
  concat (map (fun d => match d with DName _ => [VInt (size d)] | DNum _ => [] end) (distinct (all_dims g))).
Definition strides_passed (l : list Z) : list cval :=
  match l with [] => [] | [s] => [VInt s] | _ => [VStrides l] end.
Definition slice_passed (j : Z) (o : operand) : list cval :=
  VPtr (o_base o + j * o_step o) :: strides_passed (o_strides o).
Definition call_args (g : gsig) (size : dim -> Z) (ops : list operand) (j : Z) : list cval :=
  sizes_passed g size ++ concat (map (slice_passed j) ops).

(** run the calls one after the other *)
Fixpoint in_order {St A} (core : A -> St -> M St) (calls : list A) (s : St) : M St :=
  match calls with [] => ret s | c :: r => s <- core c s ;; in_order core r s end.
Definition upto (N : Z) : list Z := map Z.of_nat (seq 0 (Z.to_nat N)).

(** ** outputs: a family of memories, one per output operand *)
Section Slices.
  Context {K : Type} {T : K -> Type}.
  Definition outputs := forall k : K, mem (T k).
  (** [r], started on the outputs [st], is defined; the cells [cell k] of output k then hold
      [val k], every other cell is unchanged *)
  Definition fills (r : M outputs) (st : outputs) (cell : K -> Z -> Prop) (val : forall k, Z -> T k) : Prop :=
    exists st', r = Some st' /\
      (forall k a, cell k a -> st' k a = Some (val k a)) /\
      (forall k a, ~ cell k a -> st' k a = st k a).
  Definition allocated (st : outputs) (cell : K -> Z -> Prop) : Prop := forall k a, cell k a -> st k a <> None.
End Slices.

(** the j-th elements of the columns: the arguments of the j-th scalar call *)
Definition args_at {T} (d : T) (cols : list (list T)) (j : nat) : list T := map (fun c => nth j c d) cols.

(** ** types *)
(** a type signature: the type codes of the inputs and of the outputs *)
Definition tsig : Type := str * str.
Definition ts_text (t : tsig) : str := fst t ++ S_ "->" ++ snd t.
Definition ts_codes (t : tsig) : str := fst t ++ snd t.
Definition no_dash (t : tsig) : Prop := ~ In (ascii_of_nat 45) (ts_codes t).
(** the signatures of one core function: at least one, all of the same number of operands,
    no two with the same types *)
Definition source_ok (l : list tsig) : Prop :=
  l <> [] /\ Forall no_dash l /\ (exists n, Forall (fun t => length (ts_codes t) = n) l) /\ NoDup (map ts_codes l).
Definition mentions_long (t : tsig) : bool :=
  if in_dec ascii_dec "g"%char (ts_codes t) then true
  else if in_dec ascii_dec "G"%char (ts_codes t) then true else false.
(** the signatures the platform supports; [same]: long double is double *)
Definition supported (same : bool) (l : list tsig) : list tsig :=
  if same then filter (fun t => negb (mentions_long t)) l else l.
(** every signature with the index of the core function that implements it, in order *)
Fixpoint table (same : bool) (k : nat) (sources : list (list tsig)) : list (nat * str) :=
  match sources with
  | [] => []
  | l :: r => map (fun t => (k, ts_codes t)) (supported same l) ++ table same (S k) r
  end.

(** ** Python calls of object cores *)
From Verif Require Import M_Obj M_Geom.
(** [h] extends the history [h0] by operations that all succeeded *)
Inductive succeeded (O : aoracle) (h0 : list acall) : list acall -> Prop :=
| suc_refl : succeeded O h0 h0
| suc_step c h : succeeded O h0 h -> O (c :: h) <> None -> succeeded O h0 (c :: h).
(** either nothing was raised, or the last operation performed is the first that raised *)
Definition stops_at_error (O : aoracle) (w w' : aworld) : Prop :=
  (aerr w' = false /\ succeeded O (ahist w) (ahist w')) \/
  (aerr w' = true /\ exists c h, ahist w' = c :: h /\ succeeded O (ahist w) h /\ O (c :: h) = None).
